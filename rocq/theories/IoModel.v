(** Model of semantic_codec/solution/solution_io.py (binary solution files) and of
    the program conversions in metadata/probabilistic_rules/rules.py:8-38.

    A file is the list of its bytes (integers 0..255).  An instruction is the
    pair of its encoding and its address: the constructor CAPSInstruction(e, a)
    stores both and nothing else is written or compared here.  Buffering of the
    output file is left out: a crash leaves some prefix of the bytes. *)
From Verif Require Export Py.

(** [struct.pack] and [struct.unpack] with format '<L' (4 bytes) or '<Q' (8). *)
Fixpoint le_bytes (n : nat) (v : Z) : list Z :=
  match n with O => [] | S n' => v mod 256 :: le_bytes n' (v / 256) end.
Definition of_le_bytes (l : list Z) : Z := fold_right (fun b acc => b + 256 * acc) 0 l.
Definition pack (n : nat) (v : Z) : result (list Z) :=
  if (0 <=? v) && (v <? 2 ^ (8 * Z.of_nat n)) then Ok (le_bytes n v) else Err StructError.

Definition magic_word := 0xA0C1E2F3A4C5E6F7.
Definition inst := (Z * Z)%type.
Definition encoding (i : inst) : Z := fst i.
Definition address (i : inst) : Z := snd i.

(** What a sequence of writes left in the file, and how it ended. *)
Definition output := (list Z * result unit)%type.
Definition put (n : nat) (v : Z) : output := match pack n v with Ok b => (b, Ok tt) | Err e => ([], Err e) end.
Definition before (w w' : output) : output :=
  match snd w with Ok _ => (fst w ++ fst w', snd w') | Err _ => w end.
Fixpoint puts (l : list Z) : output :=
  match l with [] => ([], Ok tt) | v :: l' => before (put 4 v) (puts l') end.

(** rules.py:17-24 [from_instruction_list_to_dict]. *)
Definition list_to_dict (insts : list inst) : dict (list inst) :=
  fold_left (fun d i => dset d (address i) [i]) insts [].
(** rules.py:8-14 [from_instruction_dict_to_list].  Values of any type. *)
Definition dict_to_list {A} (program : dict A) : list A :=
  flat_map (fun k => match dget program k with Some v => [v] | None => [] end) (sort_by (fun k => k) (dkeys program)).
(** architecture/functions.py:7-24: a function is its instructions (the name is
    left out). *)
Definition fn := list inst.
Definition start_addr (f : fn) : Z := match f with [] => 0 | i :: _ => address i end.
Definition final_addr (f : fn) : Z := match f with [] => 0 | i :: _ => address i + 4 * Z.of_nat (length f) - 4 end.
(** rules.py:27-38 [from_functions_to_list_and_addr]. *)
Definition functions_to_list (fns : list fn) : list inst * dict (Z * Z) :=
  (sort_by address (concat fns), fold_left (fun d f => dset d (start_addr f) (start_addr f, final_addr f)) fns []).

(** solution_io.py:68-73: the index at which the search stops. *)
Fixpoint find_original (original : dict (list inst)) (k : Z) (v : list inst) : result nat :=
  match v with
  | [] => Ok 0%nat
  | vv :: v' =>
      let* l := dget_r original k in
      let* o := nth_r l 0 in
      if encoding vv =? encoding o then Ok 0%nat else rmap S (find_original original k v')
  end.
(** solution_io.py:62-81, one address. *)
Definition write_entry (original : dict (list inst)) (k : Z) (v : list inst) : output :=
  before (put 4 k)
    (match find_original original k v with
     | Err e => ([], Err e)
     | Ok index =>
         if (index =? length v)%nat then ([], Err RuntimeError)
         else before (put 4 (Z.of_nat index + 1)) (puts (map encoding (firstn (S index) v)))
     end).
Fixpoint write_entries (original : dict (list inst)) (program : dict (list inst)) : output :=
  match program with
  | [] => ([], Ok tt)
  | (k, v) :: p' => before (write_entry original k v) (write_entries original p')
  end.
(** solution_io.py:51-83 [write_binary], original program given as a dictionary
    and as a list (lines 53-54). *)
Definition write_binary (original : dict (list inst)) (program : dict (list inst)) : output :=
  before (put 8 magic_word) (before (put 4 (Z.of_nat (length program))) (write_entries original program)).
Definition write_binary_list (original : list inst) (program : dict (list inst)) : output :=
  write_binary (list_to_dict original) program.

(** solution_io.py:9-13: [fin.read(n)] returns what is left if that is less. *)
Definition get (n : nat) (file : list Z) : result (Z * list Z) :=
  if (length (firstn n file) =? n)%nat then Ok (of_le_bytes (firstn n file), skipn n file) else Err StructError.
Fixpoint read_insts (n : nat) (addr : Z) (file : list Z) : result (list inst * list Z) :=
  match n with
  | O => Ok ([], file)
  | S n' =>
      let* (e, file) := get 4 file in
      let* (l, file) := read_insts n' addr file in
      Ok ((e, addr) :: l, file)
  end.
(** solution_io.py:29-34. *)
Fixpoint read_entries (n : nat) (original program : dict (list inst)) (file : list Z) : result (dict (list inst) * dict (list inst) * list Z) :=
  match n with
  | O => Ok (original, program, file)
  | S n' =>
      let* (addr, file) := get 4 file in
      let* (count, file) := get 4 file in
      if 0 <? count then
        let* (l, file) := read_insts (Z.to_nat count) addr file in
        let* last := nth_r l (Z.to_nat count - 1) in
        read_entries n' (dset original addr [(encoding last, addr)]) (dset program addr l) file
      else read_entries n' original program file
  end.
(** solution_io.py:15-38 [read]: original, program and (not returned by the
    code) the bytes left unread. *)
Definition read_file (file : list Z) : result (dict (list inst) * dict (list inst) * list Z) :=
  let* (magic, file) := get 8 file in
  if negb (magic =? magic_word) then Err RuntimeError
  else
    let* (addr_count, file) := get 4 file in
    read_entries (Z.to_nat addr_count) [] [] file.
Definition read (file : list Z) : result (dict (list inst) * dict (list inst)) :=
  let* (original, program, _) := read_file file in Ok (original, program).
