(** Model of saving and loading corrupted programs
    (semantic_codec/corruption/corruption.py:11-39) and of JSONCorruptor and
    RandomCorruptor (semantic_codec/corruption/corruptors.py:6-34,125-139).
    A file is its text, a list of characters. *)
From Verif Require Export RandomModel.
From Coq Require Export Ascii String.
From Coq Require Import DecimalString.
Open Scope Z_scope.

Definition text := list ascii.
Definition chars (s : string) : text := list_ascii_of_string s.
Definition newline : ascii := "010".

(** [str(z)]. *)
Definition str_of_int (z : Z) : text := chars (NilZero.string_of_int (Z.to_int z)).

(** [int(k)] for text of the form [-]digits; the other forms int() accepts (spaces,
    +, underscores, non-ASCII digits) are not modelled and are a ValueError here. *)
Definition int_of_str (k : text) : result Z :=
  match NilZero.int_of_string (string_of_list_ascii k) with
  | Some d => Ok (Z.of_int d)
  | None => Err ValueError
  end.

(** *** json.dump(..., indent=2) of a dictionary from integers to lists of
    instructions; InstructionEncoder.default (corruption.py:11-16) replaces an
    instruction by its encoding, integer keys become strings, the item
    separator is a comma followed by a line break. *)
Definition json_list (l : list Z) : text :=
  match l with
  | [] => chars "[]"
  | x :: l' =>
      chars "[" ++ [newline] ++ chars "    " ++ str_of_int x ++
      flat_map (fun y => chars "," ++ [newline] ++ chars "    " ++ str_of_int y) l' ++
      [newline] ++ chars "  ]"
  end.
Definition quote : ascii := """".
Definition json_member (kv : Z * list inst) : text :=
  [quote] ++ str_of_int (fst kv) ++ [quote] ++ chars ": " ++ json_list (map i_enc (snd kv)).
(** corruption.py:19-27 [save_corrupted_program_to_json]. *)
Definition save_json (prog : program) : text :=
  match prog with
  | [] => chars "{}"
  | m :: prog' =>
      chars "{" ++ [newline] ++ chars "  " ++ json_member m ++
      flat_map (fun m' => chars "," ++ [newline] ++ chars "  " ++ json_member m') prog' ++
      [newline] ++ chars "}"
  end.

(** *** json.load for an object whose values are arrays of integers.  Any other
    JSON value, and string escapes, are a ValueError in this model. *)
Inductive token := LBrace | RBrace | LBrack | RBrack | Colon | Comma | Str (s : text) | Num (z : Z).
Inductive mode := Plain | InStr (s : text) | InNum (s : text).

Definition is_digit (c : ascii) : bool := ((48 <=? Z.of_nat (nat_of_ascii c)) && (Z.of_nat (nat_of_ascii c) <=? 57)).
Definition text_eqb (a b : text) : bool := String.eqb (string_of_list_ascii a) (string_of_list_ascii b).

(** A JSON integer: no leading zeros, so it is the decimal text of its value, or -0. *)
Definition json_number (s : text) : result Z :=
  let* z := int_of_str s in
  if text_eqb s (str_of_int z) || text_eqb s (chars "-0") then Ok z else Err ValueError.

Definition lex_plain (c : ascii) : result (list token * mode) :=
  if Ascii.eqb c " " || Ascii.eqb c "009" || Ascii.eqb c newline || Ascii.eqb c "013" then Ok ([], Plain)
  else if Ascii.eqb c "{" then Ok ([LBrace], Plain)
  else if Ascii.eqb c "}" then Ok ([RBrace], Plain)
  else if Ascii.eqb c "[" then Ok ([LBrack], Plain)
  else if Ascii.eqb c "]" then Ok ([RBrack], Plain)
  else if Ascii.eqb c ":" then Ok ([Colon], Plain)
  else if Ascii.eqb c "," then Ok ([Comma], Plain)
  else if Ascii.eqb c quote then Ok ([], InStr [])
  else if Ascii.eqb c "-" || is_digit c then Ok ([], InNum [c])
  else Err ValueError.

Definition lex_step (st : list token * mode) (c : ascii) : result (list token * mode) :=
  let '(ts, m) := st in
  match m with
  | Plain => let* (new, m') := lex_plain c in Ok (ts ++ new, m')
  | InStr s =>
      if Ascii.eqb c quote then Ok (ts ++ [Str s], Plain)
      else if Ascii.eqb c "\" || (Z.of_nat (nat_of_ascii c) <? 32) then Err ValueError
      else Ok (ts, InStr (s ++ [c]))
  | InNum s =>
      if is_digit c then Ok (ts, InNum (s ++ [c]))
      else let* z := json_number s in let* (new, m') := lex_plain c in Ok (ts ++ [Num z] ++ new, m')
  end.

Definition lex (t : text) : result (list token) :=
  let* (ts, m) := foldM lex_step t ([], Plain) in
  match m with
  | Plain => Ok ts
  | InNum s => let* z := json_number s in Ok (ts ++ [Num z])
  | InStr _ => Err ValueError
  end.

(** Dictionary with string keys: a repeated key overwrites the value in place. *)
Fixpoint sset (d : list (text * list Z)) (k : text) (v : list Z) : list (text * list Z) :=
  match d with
  | [] => [(k, v)]
  | (k', a) :: d' => if text_eqb k k' then (k', v) :: d' else (k', a) :: sset d' k v
  end.

Inductive pstate :=
| PStart | PFirst | PKey | PColon (k : text) | PArray (k : text) | PElemFirst (k : text)
| PElem (k : text) (acc : list Z) | PElemSep (k : text) (acc : list Z) | PSep | PEnd.

Definition parse_step (st : list (text * list Z) * pstate) (t : token) : result (list (text * list Z) * pstate) :=
  let '(d, s) := st in
  match s, t with
  | PStart, LBrace => Ok (d, PFirst)
  | PFirst, RBrace => Ok (d, PEnd)
  | PFirst, Str k => Ok (d, PColon k)
  | PKey, Str k => Ok (d, PColon k)
  | PColon k, Colon => Ok (d, PArray k)
  | PArray k, LBrack => Ok (d, PElemFirst k)
  | PElemFirst k, RBrack => Ok (sset d k [], PSep)
  | PElemFirst k, Num z => Ok (d, PElemSep k [z])
  | PElem k acc, Num z => Ok (d, PElemSep k (acc ++ [z]))
  | PElemSep k acc, Comma => Ok (d, PElem k acc)
  | PElemSep k acc, RBrack => Ok (sset d k acc, PSep)
  | PSep, Comma => Ok (d, PKey)
  | PSep, RBrace => Ok (d, PEnd)
  | _, _ => Err ValueError
  end.

Definition json_load (t : text) : result (list (text * list Z)) :=
  let* ts := lex t in
  let* (d, s) := foldM parse_step ts ([], PStart) in
  match s with PEnd => Ok d | _ => Err ValueError end.

(** corruption.py:30-39 [load_corrupted_program_from_json]. *)
Definition load_json (t : text) : result program :=
  let* data := json_load t in
  foldM (fun r kv =>
      let* addr := int_of_str (fst kv) in
      let* l := mapM (fun e => caps e addr) (snd kv) in
      Ok (dset r addr l)) data [].

(** corruptors.py:22-34 [JSONCorruptor.corrupt]; [None] is an unset path,
    otherwise the contents of the file. *)
Definition json_corrupt (file : option text) (prog : program) : result program :=
  match file with None => Err RuntimeError | Some t => load_json t end.

(** corruptors.py:14-18,125-139 [RandomCorruptor.corrupt]; returns the program and
    the text written.  [path] tells whether corrupted_program_path is set. *)
Definition random_corrupt (percent : spec_float) (maxa : Z) (save path : bool) (prog : program) (ds : list Z)
  : result (program * option text) :=
  let* (prog', _) := corrupt_program prog percent maxa ds in
  if save then if path then Ok (prog', Some (save_json prog')) else Err RuntimeError
  else Ok (prog', None).
