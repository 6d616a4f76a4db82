(** Model of the instruction classes: semantic_codec/architecture/instruction.py
    (storages), capstone_instruction.py and arm_instruction.py. *)
From Verif Require Export BitsModel FlipModel.

(** *** CAPSInstruction.  What capstone says about an encoding is an arbitrary record. *)
Inductive operand :=
| OReg (code : Z)              (* ARM_OP_REG with capstone's register code *)
| OMem (base index : Z)        (* ARM_OP_MEM; code 0 means no register *)
| OImm (v : Z)                 (* ARM_OP_IMM *)
| OOther.

(** str(inst).lower() starts with 'push', with 'pop' or with neither
    (capstone_instruction.py:124-131,153-159). *)
Inductive kind := KPush | KPop | KOther.

Record cap := mkCap {
  c_kind : kind;
  c_id : Z;                    (* instruction id, used as opcode *)
  c_cc : Z;                    (* condition code, 1-based *)
  c_operands : list operand;
  c_store : bool;              (* ARM_INS_STR >= id >= ARM_INS_STRBT, line 135 *)
  c_b : bool;                  (* id in [B, BX, BL, BLX], line 150 *)
  c_flags : bool               (* update_flags *)
}.

Definition SP := 13.
Definition LR := 14.
Definition PC := 15.
Definition STORE := 16.
Definition CPSR := 17.
Definition NOREG := 18.
(** arm_constants.py:33-35. *)
Definition STORAGE_COUNT := 20.

(** arm_constants.py:37-55 CAPSTONE_REGS. *)
Definition capstone_reg (code : Z) : option Z :=
  if code =? 0 then Some 0
  else if (66 <=? code) && (code <=? 78) then Some (code - 66)
  else if code =? 10 then Some LR
  else if code =? 11 then Some PC
  else if code =? 12 then Some SP
  else None.
Definition capstone_reg_r (code : Z) : result Z :=
  match capstone_reg code with Some r => Ok r | None => Err KeyError end.

Definition is_push_pop (c : cap) : bool := match c_kind c with KOther => false | _ => true end.
Definition is_pop (c : cap) : bool := match c_kind c with KPop => true | _ => false end.
Definition is_push (c : cap) : bool := match c_kind c with KPush => true | _ => false end.

(** [if not register in result: result.append(register)] *)
Definition append_new (l : list Z) (r : Z) : list Z := if zmem r l then l else l ++ [r].

(** capstone_instruction.py:53-77 [registers_used]. *)
Definition use_operand (l : list Z) (o : operand) : result (list Z) :=
  match o with
  | OReg code =>
      Ok (append_new l (match capstone_reg code with Some r => r | None => STORAGE_COUNT + code end))
  | OMem base index =>
      let* b := capstone_reg_r base in
      let l1 := if b =? 0 then l else append_new l b in
      let* i := capstone_reg_r index in
      Ok (if i =? 0 then l1 else append_new l1 i)
  | _ => Ok l
  end.
Definition registers_used (c : cap) : result (list Z) :=
  foldM use_operand (c_operands c) (if is_push_pop c then [SP] else []).

(** capstone_instruction.py:79-89 [registers_written]. *)
Definition registers_written (c : cap) : result (list Z) :=
  match c_kind c with
  | KPop => registers_used c
  | KPush => Ok []
  | KOther => rmap (firstn 1) (registers_used c)
  end.

(** capstone_instruction.py:91-105 [registers_read]. *)
Definition registers_read (c : cap) : result (list Z) :=
  let* r := if is_pop c then Ok [] else rmap (skipn 1) (registers_used c) in
  Ok (if is_push_pop c then append_new r SP else r).

(** capstone_instruction.py:133-142. *)
Definition writes_memory (c : cap) : bool := c_store c.
Definition has_memory_operand (c : cap) : bool := existsb (fun o => match o with OMem _ _ => true | _ => false end) (c_operands c).
Definition reads_memory (c : cap) : bool := has_memory_operand c && negb (writes_memory c).

(** capstone_instruction.py:145-151 [is_branch]. *)
Definition is_branch (c : cap) : result bool :=
  if c_b c then Ok true else rmap (zmem PC) (registers_written c).

(** capstone_instruction.py:167-188 [jumping_address]: the first immediate. *)
Fixpoint first_imm (ops : list operand) : option Z :=
  match ops with [] => None | OImm v :: _ => Some v | _ :: ops' => first_imm ops' end.
Definition jumping_address (c : cap) : result (option Z) :=
  let* b := is_branch c in Ok (if b then first_imm (c_operands c) else None).

(** *** Instruction.storages_*: the three caches (instruction.py:141-183).  The
    queries are those of a subclass. *)
Record queries := mkQueries {
  q_used : result (list Z); q_written : result (list Z); q_read : result (list Z);
  q_writes : bool; q_reads : bool; q_branch : result bool }.
Definition caps_queries (c : cap) : queries :=
  mkQueries (registers_used c) (registers_written c) (registers_read c) (writes_memory c) (reads_memory c) (is_branch c).

(** None and the empty list are both falsy, hence recomputed. *)
Record caches := mkCaches { k_used : list Z; k_written : list Z; k_read : list Z }.
Definition no_caches := mkCaches [] [] [].
Inductive call := CUsed | CWritten | CRead.

(** instruction.py:141-153. *)
Definition storages_used (q : queries) (k : caches) : result (list Z) * caches :=
  match k_used k with
  | _ :: _ => (Ok (k_used k), k)
  | [] =>
      match q_used q with
      | Err e => (Err e, k)
      | Ok l =>
          let l1 := if q_writes q || q_reads q then l ++ [16] else l in
          let l2 := match l1 with [] => [18] | _ => l1 end in
          (Ok l2, mkCaches l2 (k_written k) (k_read k))
      end
  end.
(** instruction.py:155-171; the cache keeps what was added before an exception. *)
Definition storages_written (q : queries) (k : caches) : result (list Z) * caches :=
  match k_written k with
  | _ :: _ => (Ok (k_written k), k)
  | [] =>
      match q_written q with
      | Err e => (Err e, k)
      | Ok l =>
          let l1 := if q_writes q then l ++ [STORE] else l in
          if zmem 15 l1 then (Ok l1, mkCaches (k_used k) l1 (k_read k))
          else match q_branch q with
               | Err e => (Err e, mkCaches (k_used k) l1 (k_read k))
               | Ok b => let l2 := if b then l1 ++ [PC] else l1 in (Ok l2, mkCaches (k_used k) l2 (k_read k))
               end
      end
  end.
(** instruction.py:173-183. *)
Definition storages_read (q : queries) (k : caches) : result (list Z) * caches :=
  match k_read k with
  | _ :: _ => (Ok (k_read k), k)
  | [] =>
      match q_read q with
      | Err e => (Err e, k)
      | Ok l => let l1 := if q_reads q then l ++ [STORE] else l in (Ok l1, mkCaches (k_used k) (k_written k) l1)
      end
  end.
Definition do_call (q : queries) (k : caches) (c : call) : result (list Z) * caches :=
  match c with CUsed => storages_used q k | CWritten => storages_written q k | CRead => storages_read q k end.
Fixpoint do_calls (q : queries) (k : caches) (cs : list call) : list (result (list Z)) :=
  match cs with
  | [] => []
  | c :: cs' => let '(r, k') := do_call q k c in r :: do_calls q k' cs'
  end.

(** *** ARMInstruction (arm_instruction.py:7-130). *)
Definition bset (hi lo : Z) : Z := 2 ^ (hi + 1) - 2 ^ lo.
Definition arm_type (e : Z) : Z := Z.land e 0xE000000.
(** arm_constants.py:85-103. *)
Definition T_LSM := 0x8000000.
Definition T_LS := 0x4000000.
Definition T_LSO := 0x6000000.
Definition T_SWI := 0xF000000.
Definition T_BRANCH := 0xA000000.
Definition T_DP := 0.
Definition T_DPI := 0x2000000.
(** arm_instruction.py:31-39. *)
Definition arm_op (e : Z) : Z :=
  let t := arm_type e in
  if (t =? T_BRANCH) || (t =? T_SWI) then t else Z.land e (bset 24 21).
(** arm_instruction.py:41-63. *)
Definition arm_rn (e : Z) : Z := Z.shiftr (Z.land e (bset 19 16)) 16.
Definition arm_rd (e : Z) : Z := Z.shiftr (Z.land e (bset 15 12)) 12.
Definition arm_rs (e : Z) : Z := Z.shiftr (Z.land e (bset 11 8)) 8.
Definition arm_rm (e : Z) : Z := Z.land e 0xF.
(** instruction.py:93-100 [_get_register_list(encoding)]. *)
Definition register_list (e : Z) : list Z := filter (fun x => Z.testbit e x) (zrange 0 16).
(** AOp.EOR <= op < AOp.RSC, or AND, BIC, ORR (arm_constants.py:62-78); op is a
    multiple of 2^21 whenever it is tested. *)
Definition two_registers (op : Z) : bool :=
  ((Z.shiftl 1 21 <=? op) && (op <? Z.shiftl 7 21)) || (op =? 0) || (op =? Z.shiftl 14 21) || (op =? Z.shiftl 12 21).
(** arm_instruction.py:65-98 [registers_used]. *)
Definition arm_used (e : Z) : list Z :=
  let t := arm_type e in
  if t <=? T_DPI then
    [arm_rn e] ++ (if two_registers (arm_op e) then [arm_rd e] else [])
    ++ (if t =? T_DP then [arm_rm e] ++ (if Z.testbit e 4 then [arm_rs e] else []) else [])
  else if (t =? T_LS) || (t =? T_LSO) then
    [arm_rn e; arm_rd e] ++ (if t =? T_LSO then [arm_rm e] else [])
  else if t =? T_LSM then arm_rn e :: register_list e
  else [].
(** arm_instruction.py:100-114: _get_register_list() is called without its argument. *)
Definition arm_written (e : Z) : result (list Z) :=
  let t := arm_type e in
  if (t =? T_DPI) || (t =? T_DP) || (t =? T_LS) || (t =? T_LSO) then Ok [arm_rd e]
  else if t =? T_LSM then Err TypeError else Ok [].
(** [l.remove(x)] *)
Fixpoint remove_first (x : Z) (l : list Z) : result (list Z) :=
  match l with
  | [] => Err ValueError
  | y :: l' => if y =? x then Ok l' else rmap (cons y) (remove_first x l')
  end.
(** arm_instruction.py:116-129. *)
Definition arm_read (e : Z) : result (list Z) :=
  if arm_type e =? T_LSM then Ok [arm_rn e] else remove_first (arm_rd e) (arm_used e).
