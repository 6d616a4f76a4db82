(** Model of semantic_codec/architecture/disassembler_readers.py.
    Text is a list of code points; a file is its text after decoding, with lines
    ended by '\n' (universal newlines would first turn '\r\n' into '\n').  An
    instruction is the pair of encoding and address, as in IoModel. *)
From Verif Require Export Py BitsModel IoModel.

Definition text := list Z.
Definition newline := 10.

(** Iterating over an open file: the lines, with their line ends. *)
Fixpoint lines_from (acc : text) (file : text) : list text :=
  match file with
  | [] => match acc with [] => [] | _ => [acc] end
  | c :: file' => if c =? newline then (acc ++ [c]) :: lines_from [] file' else lines_from (acc ++ [c]) file'
  end.
Definition lines (file : text) : list text := lines_from [] file.

(** [s.rstrip('\n')], [s.rstrip()], [s.strip()] *)
Fixpoint drop_while (f : Z -> bool) (s : text) : text := match s with [] => [] | c :: s' => if f c then drop_while f s' else s end.
Definition rstrip_nl (s : text) : text := rev (drop_while (fun c => c =? newline) (rev s)).
Definition rstrip (s : text) : text := rev (drop_while is_space (rev s)).
Definition strip (s : text) : text := rstrip (drop_while is_space s).

(** [s.split(c, 1)] for one character: the part before, and the part after if any. *)
Fixpoint split_once (c : Z) (s : text) : text * option text :=
  match s with
  | [] => ([], None)
  | x :: s' => if x =? c then ([], Some s') else let '(a, b) := split_once c s' in (x :: a, b)
  end.
(** [s.split("  ", 1)[0]] *)
Fixpoint before_double (s : text) : text :=
  match s with
  | x :: (y :: _) as s' => if (x =? 32) && (y =? 32) then [] else x :: before_double s'
  | _ => s
  end.
(** [s.split(c)] for one character. *)
Fixpoint split_all (c : Z) (s : text) : list text :=
  match s with
  | [] => [[]]
  | x :: s' => if x =? c then [] :: split_all c s'
               else match split_all c s' with p :: ps => (x :: p) :: ps | [] => [[x]] end
  end.
Fixpoint startswith (p s : text) : bool :=
  match p, s with
  | [], _ => true
  | x :: p', y :: s' => (x =? y) && startswith p' s'
  | _ :: _, [] => false
  end.

(** [int(s, 16)]: surrounding white space, a sign and a 0x prefix are accepted;
    underscores between digits (also accepted by Python) are a ValueError here. *)
Definition hex_digits (s : text) : result Z := match s with [] => Err ValueError | _ => parse_hex_from 0 s end.
Definition unprefix (s : text) : text :=
  match s with
  | 48 :: 120 :: s' => s'
  | 48 :: 88 :: s' => s'
  | _ => s
  end.
Definition int16 (s : text) : result Z :=
  match strip s with
  | 45 :: s' => rmap Z.opp (hex_digits (unprefix s'))
  | 43 :: s' => hex_digits (unprefix s')
  | s' => hex_digits (unprefix s')
  end.

(** ** TextDisassembleReader *)
(** disassembler_readers.py:139-142 (and 119-122): one indented line, without its
    line end. *)
Definition text_line (line : text) : result inst :=
  match snd (split_once 58 line) with
  | None => Err IndexError
  | Some r =>
      let '(a, b) := split_once 32 (before_double r) in
      match b with
      | None => Err IndexError
      | Some b => let* address := int16 a in let* encoding := parse_hex (reverse_endianess_str b) in Ok (encoding, address)
      end
  end.
(** disassembler_readers.py:130-145 [read_instructions] (ARM instruction set). *)
Definition text_read_instructions (file : text) : result (list inst) :=
  foldM (fun result line =>
    match line with
    | 32 :: _ => let* i := text_line (rstrip_nl line) in Ok (result ++ [i])
    | _ => Ok result
    end) (lines file) [].

(** disassembler_readers.py:101: the pattern
    [^\.\w+\:[0-9a-f]+\s*\<[\$|\w+]], with \w and \s limited to ASCII letters,
    digits, underscore and the white space of [is_space]. *)
Definition is_word (c : Z) : bool :=
  ((48 <=? c) && (c <=? 57)) || ((65 <=? c) && (c <=? 90)) || ((97 <=? c) && (c <=? 122)) || (c =? 95).
Definition is_lower_hex (c : Z) : bool := ((48 <=? c) && (c <=? 57)) || ((97 <=? c) && (c <=? 102)).
Definition is_header (line : text) : bool :=
  match line with
  | 46 :: s =>
    match s with
    | w :: _ => is_word w &&
      match drop_while is_word s with
      | 58 :: s2 =>
        match s2 with
        | h :: _ => is_lower_hex h &&
          match drop_while is_space (drop_while is_lower_hex s2) with
          | 60 :: c :: _ => (c =? 36) || (c =? 124) || (c =? 43) || is_word c
          | _ => false
          end
        | [] => false
        end
      | _ => false
      end
    | [] => false
    end
  | _ => false
  end.
(** A function: name and instructions. *)
Definition named := (text * list inst)%type.
Definition no_method : text := [110; 111; 95; 109; 101; 116; 104; 111; 100].
(** [result[len(result) - 1].instructions.append(i)] *)
Fixpoint append_last (fs : list named) (i : inst) : list named :=
  match fs with
  | [] => []
  | [(n, l)] => [(n, l ++ [i])]
  | f :: fs' => f :: append_last fs' i
  end.
(** disassembler_readers.py:99-125 [read_functions]; [k in result] compares a name
    with functions and is never true. *)
Definition text_read_functions (file : text) : result (list named) :=
  foldM (fun fs line =>
    let line := rstrip_nl line in
    if is_header line then Ok (fs ++ [(line, [])])
    else match line with
         | 32 :: _ => let* i := text_line line in Ok (append_last fs i)
         | _ => Ok fs
         end) (lines file) [(no_method, [])].

(** ** ElfioTextDisassembleReader *)
(** Function objects are numbered in order of creation; [r_functions] is the
    dictionary from address to object. *)
Record rstate := RState { r_section : option text; r_objects : list named; r_functions : dict nat; r_current : option nat; r_instructions : list inst }.
Fixpoint append_nth (fs : list named) (k : nat) (i : inst) : list named :=
  match fs, k with
  | [], _ => []
  | (n, l) :: fs', O => (n, l ++ [i]) :: fs'
  | f :: fs', S k' => f :: append_nth fs' k' i
  end.
(* 'function', 'init', 'text', 'plt', 'fini' *)
Definition s_function : text := [102; 117; 110; 99; 116; 105; 111; 110].
Definition s_init : text := [105; 110; 105; 116].
Definition s_text : text := [116; 101; 120; 116].
Definition s_plt : text := [112; 108; 116].
Definition s_fini : text := [102; 105; 110; 105].
(** disassembler_readers.py:55-80, one line. *)
Definition elfio_line (st : rstate) (line : text) : result rstate :=
  match strip line with
  | [] => Ok st
  | _ =>
    match line with
    | 46 :: _ =>
        let* section := nth_r (split_all 46 line) 1 in
        Ok (RState (Some section) (r_objects st) (r_functions st) (r_current st) (r_instructions st))
    | _ =>
      match r_section st with
      | None => Err AttributeError
      | Some section =>
        if startswith s_function section then
          match split_all 59 line with
          | [address; name] =>
              let* a := int16 address in
              Ok (RState (r_section st) (r_objects st ++ [(rstrip name, [])]) (dset (r_functions st) a (length (r_objects st))) (r_current st) (r_instructions st))
          | _ => Err ValueError
          end
        else if startswith s_init section || startswith s_text section || startswith s_plt section || startswith s_fini section then
          match split_all 59 line with
          | address :: encoding :: _ =>
              let* e := int16 encoding in
              let* a := int16 address in
              let i := (e, a) in
              let current := match dget (r_functions st) a with Some f => Some f | None => r_current st end in
              let objects := match current with Some f => append_nth (r_objects st) f i | None => r_objects st end in
              Ok (RState (r_section st) objects (r_functions st) current (r_instructions st ++ [i]))
          | _ => Ok st   (* '[ERROR] Cannot parse line' is printed *)
          end
        else Ok st
      end
    end
  end.
(** disassembler_readers.py:46-84 [read]. *)
Definition elfio_read (file : text) : result (list named * list inst) :=
  let* st := foldM elfio_line (lines file) (RState None [] [] None []) in
  let* functions := mapM (fun f => nth_r (r_objects st) f) (dvalues (r_functions st)) in
  Ok (functions, r_instructions st).
