(** Model of the scripts huffman_improver.py and comparefiles.py: what they print, in order,
    and the exception that ends them, if any. *)
From Verif Require Export Py ReaderModel HuffmanModel CompressModel.
Open Scope Z_scope.

(** A [print] of something that may raise; nothing is printed after an exception. *)
Definition then_print {O} (s : list O * option exn) (r : result (list O)) : list O * option exn :=
  match snd s with
  | Some _ => s
  | None => match r with Ok o => (fst s ++ o, None) | Err e => (fst s, Some e) end
  end.

(** huffman_improver.py:22-43 with huffman.py:126-132 [count].  The program is the list of the
    identities of its instructions, as in [freq_info]; [op] and [cond] are their fields.
    [change_registers] works on the dictionary [fc.reg_frequency] itself, which is then
    measured again.  Only the numbers printed are kept. *)
Definition improver (fuel : nat) (program : list Z) (registers : Z -> result (list Z)) (op cond : Z -> Z) : list Z * option exn :=
  match (let* (r, _) := freq_info program registers in
         let* (o, _) := freq_info program (fun p => Ok [op p]) in
         let* (c, _) := freq_info program (fun p => Ok [cond p]) in
         Ok (r, o, c)) with
  | Err e => ([], Some e)
  | Ok (r, o, c) =>
    let size f := let* n := huffman_size f None in Ok [n] in
    let before := then_print (then_print (then_print ([], None) (size r)) (size o)) (size c) in
    then_print before (let* (_, r') := change_registers fuel program registers in size r')
  end.

(** Comparison and dictionaries of texts. *)
Fixpoint same_text (a b : text) : bool :=
  match a, b with
  | [], [] => true
  | x :: a', y :: b' => (x =? y) && same_text a' b'
  | _, _ => false
  end.
Fixpoint tget {A} (d : list (text * A)) (k : text) : option A :=
  match d with [] => None | (k', v) :: d' => if same_text k' k then Some v else tget d' k end.
(** The character codes of ":", ".", ".disam" and "True". *)
Definition c_colon := 58.
Definition c_dot := 46.
Definition s_disam : text := [46; 100; 105; 115; 97; 109].
Definition s_true : text := [84; 114; 117; 101].

(** comparefiles.py:7-13: the dictionary, latest entry first.  The unpacking raises
    [ValueError] unless there is exactly one colon. *)
Definition equals_line (d : list (text * bool)) (line : text) : result (list (text * bool)) :=
  match split_all c_colon line with
  | [key; value] =>
    match split_all c_dot (strip key) with
    | [] => Err IndexError
    | k :: _ => Ok ((k ++ s_disam, same_text (strip value) s_true) :: d)
    end
  | _ => Err ValueError
  end.

(** comparefiles.py:29-36, the loop over the lines of a file: [k], [diff] and what is printed. *)
Definition report := (text * nat * text * text)%type.
Definition compare_line (original : list text) (f : text) (s : (nat * nat) * (list report * option exn)) (line : text) : (nat * nat) * (list report * option exn) :=
  let '((k, diff), out) := s in
  match snd out with
  | Some _ => s
  | None =>
    match nth_r original k with
    | Err e => ((k, diff), (fst out, Some e))
    | Ok o =>
      if same_text o line then ((S k, diff), out)
      else ((S k, S diff), then_print out (Ok (if (1 <? S diff)%nat then [(f, k, strip o, strip line)] else [])))
    end
  end.
(** comparefiles.py:24-36, one turn of the loop over the files.  Files are given with their
    lines; the lines of an open file end with their newline, as those of [readlines]. *)
Definition compare_file (equals : list (text * bool)) (original : list text) (out : list report * option exn) (file : text * list text) : list report * option exn :=
  match snd out with
  | Some _ => out
  | None =>
    match tget equals (fst file) with
    | None => (fst out, Some KeyError)
    | Some false => out
    | Some true => snd (fold_left (compare_line original (fst file)) (snd file) ((0%nat, 0%nat), out))
    end
  end.
(** comparefiles.py:1-36 on the lines of the results file and the files of the directory, in
    the order of [listdir]. *)
Definition comparefiles (results : list text) (files : list (text * list text)) : list report * option exn :=
  match foldM equals_line results [] with
  | Err e => ([], Some e)
  | Ok equals =>
    match files with
    | [] => ([], Some IndexError)
    | first :: _ => fold_left (compare_file equals (snd first)) files ([], None)
    end
  end.
