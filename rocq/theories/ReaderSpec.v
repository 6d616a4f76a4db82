(** Vocabulary for the reader claims; independent of the model.  Text is a list of
    code points. *)
From Verif Require Export Py.

(** A hexadecimal digit, in either case, and a number written with such digits. *)
Inductive hex_char : Z -> Z -> Prop :=
| hex_decimal d : 0 <= d <= 9 -> hex_char (48 + d) d
| hex_lower d : 10 <= d <= 15 -> hex_char (87 + d) d
| hex_upper d : 10 <= d <= 15 -> hex_char (55 + d) d.
Definition hex_text (s : list Z) (v : Z) : Prop :=
  s <> [] /\ exists ds, Forall2 hex_char s ds /\ v = fold_left (fun a d => 16 * a + d) ds 0.

(** A line of the online disassembler's listing: an instruction line, or another
    line, which does not start with a blank. *)
Record asm_line := AsmLine { al_prefix : list Z; al_address : list Z; al_bytes : list (list Z); al_comment : option (list Z);
                             al_at : Z; al_values : list Z }.
(** The characters of the line: blank, section, colon, address, the four bytes, and
    perhaps two blanks and a comment. *)
Definition asm_text (l : asm_line) : list Z :=
  32 :: al_prefix l ++ 58 :: al_address l ++ flat_map (fun b => 32 :: b) (al_bytes l) ++
  match al_comment l with Some c => 32 :: 32 :: c | None => [] end.
Definition asm_ok (l : asm_line) : Prop :=
  (~ In 58 (al_prefix l) /\ ~ In 10 (al_prefix l)) /\
  hex_text (al_address l) (al_at l) /\
  length (al_bytes l) = 4%nat /\ Forall2 (fun b v => length b = 2%nat /\ hex_text b v) (al_bytes l) (al_values l) /\
  (forall c, al_comment l = Some c -> ~ In 10 c).
(** The encoding is the little endian value of the bytes. *)
Definition asm_encoding (l : asm_line) : Z := fold_right (fun b n => b + 256 * n) 0 (al_values l).

(** Position [i] of a list of addresses lies in the function starting at [a]. *)
Definition belongs (declared addresses : list Z) (i : nat) (a : Z) : Prop :=
  exists j, (j <= i)%nat /\ (i < length addresses)%nat /\ nth_error addresses j = Some a /\ In a declared /\
    forall k b, (j < k <= i)%nat -> nth_error addresses k = Some b -> ~ In b declared.
(** [sub] is the sublist of [l] at the positions for which [P] holds. *)
Definition sublist_at {A} (P : nat -> Prop) (l sub : list A) : Prop :=
  exists idx, (forall i, In i idx <-> (i < length l)%nat /\ P i) /\ (forall m n i j, nth_error idx m = Some i -> nth_error idx n = Some j -> (m < n)%nat -> (i < j)%nat) /\
    Forall2 (fun i x => nth_error l i = Some x) idx sub.

(** A listing of the ELF reader.  White space is as in Python (Latin-1 part). *)
Definition blank (c : Z) : Prop := In c [9; 10; 11; 12; 13; 28; 29; 30; 31; 32; 133; 160].
(** A number, with or without the prefix 0x. *)
Definition elf_number (s : list Z) (v : Z) : Prop := hex_text s v \/ exists s', s = 48 :: 120 :: s' /\ hex_text s' v.
(** A line of the function table: white space, or [address;name]. *)
Inductive table_line := TBlank (ws : list Z) | TFun (address name : list Z) (a : Z).
Definition table_text (l : table_line) : list Z := match l with TBlank ws => ws | TFun address name _ => address ++ 59 :: name end.
Definition table_ok (l : table_line) : Prop :=
  match l with
  | TBlank ws => Forall blank ws /\ ~ In 10 ws
  | TFun address name a => elf_number address a /\ ~ In 59 name /\ ~ In 10 name /\ forall p c, name = p ++ [c] -> ~ blank c
  end.
Definition declarations (ls : list table_line) : list (Z * list Z) :=
  flat_map (fun l => match l with TBlank _ => [] | TFun _ name a => [(a, name)] end) ls.
(** A line of a code section: white space, or [address;encoding], perhaps followed by
    [;] and anything. *)
Inductive code_line := CBlank (ws : list Z) | CInst (address encoding : list Z) (rest : option (list Z)) (a e : Z).
Definition code_text (l : code_line) : list Z :=
  match l with
  | CBlank ws => ws
  | CInst address encoding rest _ _ => address ++ 59 :: encoding ++ match rest with Some r => 59 :: r | None => [] end
  end.
Definition code_ok (l : code_line) : Prop :=
  match l with
  | CBlank ws => Forall blank ws /\ ~ In 10 ws
  | CInst address encoding rest a e => elf_number address a /\ elf_number encoding e /\ (forall r, rest = Some r -> ~ In 10 r)
  end.
Definition code_insts (ls : list code_line) : list (Z * Z) :=
  flat_map (fun l => match l with CBlank _ => [] | CInst _ _ _ a e => [(e, a)] end) ls.
(** A section: a line ".name…" and the lines below it. *)
Inductive keyword : list Z -> Prop :=   (* init, text, plt, fini *)
| kw_init : keyword [105; 110; 105; 116]
| kw_text : keyword [116; 101; 120; 116]
| kw_plt : keyword [112; 108; 116]
| kw_fini : keyword [102; 105; 110; 105].
Record block := Block { b_name : list Z; b_tail : list Z; b_lines : list code_line }.
Definition block_ok (b : block) : Prop := keyword (b_name b) /\ ~ In 10 (b_tail b) /\ Forall code_ok (b_lines b).
Definition block_text (b : block) : list (list Z) := (46 :: b_name b ++ b_tail b) :: map code_text (b_lines b).
(** The whole file, a function table followed by sections of code: its lines, and
    its text. *)
Definition listing_lines (tail : list Z) (table : list table_line) (blocks : list block) : list (list Z) :=
  (46 :: [102; 117; 110; 99; 116; 105; 111; 110] ++ tail) :: map table_text table ++ flat_map block_text blocks.
Definition file_of (ls : list (list Z)) : list Z := flat_map (fun l => l ++ [10]) ls.
(** The name last declared for an address. *)
Definition last_declared (ds : list (Z * list Z)) (a : Z) (name : list Z) : Prop :=
  exists d1 d2, ds = d1 ++ (a, name) :: d2 /\ ~ In a (map fst d2).

(** A file of the online disassembler: instruction lines, and other lines, which do
    not start with a blank. *)
Definition asm_item_ok (x : asm_line + list Z) : Prop :=
  match x with inl l => asm_ok l | inr s => ~ In 10 s /\ forall c, hd_error s = Some c -> c <> 32 end.
Definition asm_item_text (x : asm_line + list Z) : list Z := match x with inl l => asm_text l | inr s => s end.
Definition asm_insts (xs : list (asm_line + list Z)) : list (Z * Z) :=
  flat_map (fun x => match x with inl l => [(asm_encoding l, al_at l)] | inr _ => [] end) xs.

(** A function header of that listing: ".section:address <name". *)
Definition word_char (c : Z) : Prop := 48 <= c <= 57 \/ 65 <= c <= 90 \/ 97 <= c <= 122 \/ c = 95.
Definition lower_hex (c : Z) : Prop := 48 <= c <= 57 \/ 97 <= c <= 102.
Definition function_header (line : list Z) : Prop :=
  exists w x s c r, line = 46 :: w ++ 58 :: x ++ s ++ 60 :: c :: r /\ w <> [] /\ Forall word_char w /\ x <> [] /\ Forall lower_hex x /\
    Forall blank s /\ (word_char c \/ In c [36; 124; 43]).
