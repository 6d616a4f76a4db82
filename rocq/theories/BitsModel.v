(** Model of semantic_codec/architecture/bits.py (class Bits), of the field
    setters of instruction_modifier.py and of the arithmetic parts of
    instruction.py.  Definitions only. *)
From Verif Require Export Py.

(** bits.py:84-88 [Bits.check_range]. *)
Definition check_range (lo hi : Z) : result unit :=
  if lo >? hi then Err RuntimeError
  else if (lo <? 0) || (hi >=? 32) then Err RuntimeError
  else Ok tt.

(** bits.py:131-133 [Bits.set]. *)
Definition bits_set (higher lower : Z) : result Z :=
  let* _ := check_range lower higher in
  Ok (Z.lxor (2 ^ (higher + 1) - 1) (2 ^ lower - 1)).

(** bits.py:91-112 [Bits.copy_bits]. *)
Definition copy_bits (value_from value_to src_from src_to dest_from : Z) : result Z :=
  let dest_to := dest_from + (src_to - src_from) in
  let* _ := check_range src_from src_to in
  let* _ := check_range dest_from dest_to in
  let* mask := bits_set dest_to dest_from in
  let value_to := Z.land value_to (Z.lnot mask) in
  if src_from >? dest_from then
    Ok (Z.lor value_to (Z.land mask (Z.shiftr value_from (src_from - dest_from))))
  else
    Ok (Z.lor value_to (Z.land mask (Z.shiftl value_from (dest_from - src_from)))).

(** bits.py:115-124 [Bits.are_on]. *)
Definition are_on (value higher lower : Z) : result bool :=
  let* m := bits_set higher lower in
  Ok (negb (Z.land value m =? 0)).

(** bits.py:127-128 [Bits.is_on].  For a negative bit [2**bit] is a float and
    [&] raises TypeError. *)
Definition is_on (value bit : Z) : result bool :=
  if bit <? 0 then Err TypeError
  else Ok (negb (Z.land value (2 ^ bit) =? 0)).

(** bits.py:136-138 [Bits.on].  Simplification: only meaningful for
    [value >= 0]; Python returns a float below zero, the model 0. *)
Definition bits_on (value : Z) : Z := 2 ^ value.

(** instruction_modifier.py:13-65, the six 4-bit setters. *)
Definition modify_cond (inst v : Z) : result Z := copy_bits v inst 0 3 28.   (* 13-20 *)
Definition modify_opcode (inst v : Z) : result Z := copy_bits v inst 0 3 21. (* 22-29 *)
Definition modify_rn (inst v : Z) : result Z := copy_bits v inst 0 3 16.     (* 31-38 *)
Definition modify_rd (inst v : Z) : result Z := copy_bits v inst 0 3 12.     (* 40-47 *)
Definition modify_rs (inst v : Z) : result Z := copy_bits v inst 0 3 8.      (* 49-56 *)
Definition modify_rm (inst v : Z) : result Z := copy_bits v inst 0 3 0.      (* 58-65 *)

(** instruction_modifier.py:67-77 [modify_immediate]. *)
Definition modify_immediate (inst imm : Z) : result Z :=
  if Z.land inst 0xE000000 =? 0x4000000 then copy_bits imm inst 0 11 0
  else copy_bits imm inst 0 7 0.

(** arm_instruction.py:38-60, the register field getters used to read back. *)
Definition rn_field (e : Z) : result Z :=                                    (* 38-42 *)
  let* m := bits_set 19 16 in Ok (Z.shiftr (Z.land e m) 16).
Definition rd_field (e : Z) : result Z :=                                    (* 44-48 *)
  let* m := bits_set 15 12 in Ok (Z.shiftr (Z.land e m) 12).
Definition rs_field (e : Z) : result Z :=                                    (* 50-54 *)
  let* m := bits_set 11 8 in Ok (Z.shiftr (Z.land e m) 8).
Definition rm_field (e : Z) : result Z := Ok (Z.land e 0xF).                 (* 56-60 *)
(** arm_instruction.py:15-20 [conditional_field] (not shifted). *)
Definition cond_field (e : Z) : Z := Z.land e 0xF0000000.

(** struct.pack(">I", v): four bytes, most significant first; struct.error
    outside 0 .. 2^32-1. *)
Definition pack_be32 (v : Z) : result (list Z) :=
  if (0 <=? v) && (v <? 2 ^ 32) then
    Ok [ (v / 2 ^ 24) mod 256; (v / 2 ^ 16) mod 256; (v / 2 ^ 8) mod 256; v mod 256 ]
  else Err StructError.

(** struct.unpack("<I", bytes)[0]: needs exactly four bytes. *)
Definition unpack_le32 (b : list Z) : result Z :=
  match b with
  | [b0; b1; b2; b3] => Ok (b0 + 2 ^ 8 * b1 + 2 ^ 16 * b2 + 2 ^ 24 * b3)
  | _ => Err StructError
  end.

(** instruction.py:112-113 [reverse_endianess], int branch. *)
Definition reverse_endianess_int (v : Z) : result Z :=
  let* b := pack_be32 v in unpack_le32 b.

(** Characters are code points.  [str.split()] without arguments splits on
    these (Latin-1 part of Python's white space). *)
Definition is_space (c : Z) : bool :=
  ((9 <=? c) && (c <=? 13)) || ((28 <=? c) && (c <=? 32)) || (c =? 133) || (c =? 160).

(** [''.join(value.split())] *)
Definition strip_spaces (s : list Z) : list Z := filter (fun c => negb (is_space c)) s.

(** [a[i:j]] for [0 <= i <= j] *)
Definition slice {A} (l : list A) (i j : nat) : list A := firstn (j - i) (skipn i l).

(** instruction.py:107-111 [reverse_endianess], str branch. *)
Definition reverse_endianess_str (s : list Z) : list Z :=
  let a := strip_spaces s in
  slice a 6 8 ++ slice a 4 6 ++ slice a 2 4 ++ slice a 0 2.

(** instruction.py:36-37, [int(''.join(encoding.split()), 16)].  Simplification:
    only plain hex digits are accepted (Python also accepts a sign, a 0x prefix
    and single underscores). *)
Definition hex_digit (c : Z) : option Z :=
  if (48 <=? c) && (c <=? 57) then Some (c - 48)
  else if (97 <=? c) && (c <=? 102) then Some (c - 87)
  else if (65 <=? c) && (c <=? 70) then Some (c - 55)
  else None.

Fixpoint parse_hex_from (acc : Z) (s : list Z) : result Z :=
  match s with
  | [] => Ok acc
  | c :: s' => match hex_digit c with
               | Some d => parse_hex_from (16 * acc + d) s'
               | None => Err ValueError
               end
  end.

Definition parse_hex (s : list Z) : result Z :=
  match strip_spaces s with
  | [] => Err ValueError
  | s' => parse_hex_from 0 s'
  end.

(** instruction.py:72-77 (and darm_instruction.py:140-145), the address
    computed from the encoding. *)
Definition computed_jump (encoding addr : Z) : result Z :=
  let* m := bits_set 23 0 in
  let address := Z.land encoding m in
  let* neg := is_on address 23 in
  let* address := (if neg then let* h := bits_set 29 24 in Ok (Z.lor address h) else Ok address) in
  let address := Z.shiftl address 2 in
  let address := address + (addr + 8) in
  Ok (Z.land address 0xffffffff).

(** instruction.py:64-80 [Instruction.jumping_address]: value and new cache. *)
Definition jumping_address (is_branch : bool) (encoding addr : Z) (cache : option Z)
  : result (option Z * option Z) :=
  if is_branch then
    match cache with
    | None => let* a := computed_jump encoding addr in Ok (Some a, Some a)
    | Some a => Ok (Some a, Some a)
    end
  else Ok (None, cache).

(** darm_instruction.py:136-147 [DARMInstruction.jumping_address]: no branch test. *)
Definition darm_jumping_address (encoding addr : Z) (cache : option Z)
  : result (option Z * option Z) :=
  match cache with
  | None => let* a := computed_jump encoding addr in Ok (Some a, Some a)
  | Some a => Ok (Some a, Some a)
  end.

(** instruction.py:97-103 [_get_register_list]; [result=None] or an empty list
    start a new list. *)
Definition get_register_list (encoding : Z) (res : list Z) : result (list Z) :=
  foldM (fun r x =>
           let* b := is_on encoding x in
           Ok (if b && negb (existsb (Z.eqb x) r) then r ++ [x] else r))
        (zrange 0 16) res.
