(** Model of semantic_codec/architecture/darm_instruction.py and of the constructor
    of Instruction (instruction.py:18-44).  The darm library is not part of the
    repository; what it says about an encoding is an arbitrary record, or None. *)
From Verif Require Export InstModel.
From Coq Require Export String Ascii.
Open Scope Z_scope.
Open Scope list_scope.

(** The attributes read by the wrapper.  Registers are None or have an idx
    (a register object is truthy); [k_name] is [str(instr).lower()] and
    [k_pieces] is [str(darm).split(',')]. *)
Record darm := mkDarm {
  k_S : bool; k_name : string; k_Rt : option Z; k_Rd : option Z; k_Rn : option Z; k_Rs : option Z; k_Rm : option Z;
  k_reglist : Z; k_cond : Z; k_type : Z; k_pieces : list string }.

(** [sub in text] for strings. *)
Definition contains (sub text : string) : bool := match index 0 sub text with Some _ => true | None => false end.
(** darm_instruction.py:94-101; a list asks for any (None, falsy, if there is none). *)
Definition inst_is (d : darm) (s : string) : bool := contains s (k_name d).
Definition inst_is_any (d : darm) (l : list string) : bool := existsb (inst_is d) l.

Definition opt_list (o : option Z) : list Z := match o with Some x => [x] | None => [] end.
(** instruction.py:96-103 [_get_register_list(encoding, result)]: appends to the
    list it is given; an empty one is replaced by a new list. *)
Definition get_register_list (encoding : Z) (l : list Z) : list Z :=
  fold_left (fun l x => if Z.testbit encoding x && negb (zmem x l) then l ++ [x] else l) (zrange 0 16) l.
(** darm_instruction.py:52-70.  If [result] is not empty the call appends to
    it and returns it, so it is extended by itself. *)
Definition darm_written (d : darm) : list Z :=
  let result := (if k_S d || inst_is_any d ["tst"; "teq"; "cmp"; "cmn"]%string then [CPSR] else []) ++ opt_list (k_Rt d) ++ opt_list (k_Rd d) in
  if (0 <? k_reglist d) && negb (inst_is d "push") then
    match result with
    | [] => get_register_list (k_reglist d) []
    | _ => let r := get_register_list (k_reglist d) result in r ++ r
    end
  else result.
(** darm_instruction.py:72-92. *)
Definition COND_ALWAYS := 14.
Definition darm_read (d : darm) : list Z :=
  opt_list (k_Rn d) ++ opt_list (k_Rs d) ++ opt_list (k_Rm d)
  ++ (if k_cond d =? COND_ALWAYS then [] else [CPSR])
  ++ (if inst_is d "push" then (if 0 <? k_reglist d then get_register_list (k_reglist d) [] else []) else []).
(** darm_instruction.py:43-50. *)
Definition darm_used (d : darm) : list Z := darm_written d ++ darm_read d.
(** darm_instruction.py:103-111. *)
Definition bracket (s : string) : bool := contains "[" s || contains "]" s.
Definition darm_writes (d : darm) : bool :=
  match k_pieces d with p0 :: _ :: _ => bracket p0 || inst_is d "push" | _ => false end.
Definition darm_reads (d : darm) : bool :=
  match k_pieces d with _ :: p1 :: _ => bracket p1 || inst_is d "pop" | _ => false end.
(** darm_instruction.py:113-120. *)
Definition darm_branch (d : darm) : bool := (k_type d =? 10) || (k_type d =? 11) || zmem PC (darm_written d).
(** What the storages of Instruction ask; an undefined instruction has no
    attributes ([None.S]). *)
Definition darm_queries (o : option darm) : queries :=
  match o with
  | Some d => mkQueries (Ok (darm_used d)) (Ok (darm_written d)) (Ok (darm_read d)) (darm_writes d) (darm_reads d) (Ok (darm_branch d))
  | None => mkQueries (Err AttributeError) (Err AttributeError) (Err AttributeError) false false (Err AttributeError)
  end.
(** darm_instruction.py:149-150 [modifies_flags]. *)
Definition darm_modifies_flags (o : option darm) (k : caches) : result bool := rmap (zmem CPSR) (fst (storages_written (darm_queries o) k)).
(** darm_instruction.py:152-159: the constructor is called without its second
    argument. *)
Definition darm_construct (dis : Z -> option darm) (encoding : Z) (position : option Z) : result (option darm) :=
  match position with Some _ => Ok (dis encoding) | None => Err TypeError end.
Definition encodings_to_darm (dis : Z -> option darm) (encodings : list Z) (return_undefined : bool) : result (list (option darm)) :=
  foldM (fun res e => let* d := darm_construct dis e None in
                      Ok (if return_undefined || match d with Some _ => true | None => false end then res ++ [d] else res)) encodings [].

(** *** Encodings given as text (instruction.py:36-37), for ASCII texts. *)
Definition code (c : ascii) : Z := Z.of_nat (nat_of_ascii c).
(** What str.split() separates at. *)
Definition blank (c : ascii) : bool := ((9 <=? code c) && (code c <=? 13)) || ((28 <=? code c) && (code c <=? 32)).
(** The value of a digit of int(). *)
Definition digit (c : ascii) : option Z :=
  if (48 <=? code c) && (code c <=? 57) then Some (code c - 48)
  else if (97 <=? code c) && (code c <=? 122) then Some (code c - 87)
  else if (65 <=? code c) && (code c <=? 90) then Some (code c - 55)
  else None.
(** int(text, base): digits with single underscores between them; [wanted]: a
    digit must follow. *)
Fixpoint digits (base : Z) (wanted : bool) (acc : Z) (l : list ascii) : result Z :=
  match l with
  | [] => if wanted then Err ValueError else Ok acc
  | c :: l' =>
      match digit c with
      | Some d => if d <? base then digits base false (acc * base + d) l' else Err ValueError
      | None => if (code c =? 95) && negb wanted then digits base true acc l' else Err ValueError
      end
  end.
(** After a base prefix one underscore may follow. *)
Definition unprefix (base : Z) (l : list ascii) : list ascii :=
  match l with
  | a :: b :: l' =>
      if (base =? 16) && (code a =? 48) && ((code b =? 120) || (code b =? 88))
      then match l' with c :: l'' => if code c =? 95 then l'' else l' | [] => [] end
      else l
  | _ => l
  end.
Definition py_int (base : Z) (l : list ascii) : result Z :=
  match l with
  | c :: l' => if code c =? 45 then rmap Z.opp (digits base true 0 (unprefix base l'))
               else if code c =? 43 then digits base true 0 (unprefix base l')
               else digits base true 0 (unprefix base l)
  | [] => Err ValueError
  end.
(** instruction.py:36-37; [base] is 16 or 10. *)
Definition text_encoding (base : Z) (text : list ascii) : result Z := py_int base (filter (fun c => negb (blank c)) text).
