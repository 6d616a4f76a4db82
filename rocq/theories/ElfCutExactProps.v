(** C163: what exactly a listing for the ELF reader is read as when it ends within a line. *)
From Verif Require Import ListLemmas BitsModel IoModel ReaderModel ReaderSpec ReaderProofs ReaderProofs2 ReaderProps ReaderCutProps ElfCutProps.
From Coq Require Import ZifyBool ZifyNat.

(** *** Specification *)
(** What is left of the line [address;encoding...] when [n] of its characters are left:
    nothing without the semicolon; an error without a digit behind it; otherwise the
    encoding without its missing digits. *)
Definition line_left (address encoding : list Z) (a e : Z) (n : nat) : result (list (Z * Z)) :=
  if (n <=? length address)%nat then Ok []
  else let given := firstn (n - length address - 1) encoding in
    if in_dec (list_eq_dec Z.eq_dec) given [[]; [48; 120]] then Err ValueError   (* nothing, or only 0x *)
    else Ok [(e / 16 ^ Z.of_nat (length encoding - length given), a)].

(** *** Proof *)
Lemma number_left s v part rest : elf_number s v -> s = part ++ rest ->
  int16 part = if in_dec (list_eq_dec Z.eq_dec) part [[]; [48; 120]] then Err ValueError else Ok (v / 16 ^ Z.of_nat (length rest)).
Proof. intros N E. destruct (in_dec _ _ _) as [[<-|[<-|[]]]|Ni]; [reflexivity|reflexivity|]. assert (Np : part <> []) by (intros ->; apply Ni; left; reflexivity). assert (Nx : part <> [48; 120]) by (intros ->; apply Ni; right; left; reflexivity). clear Ni.
  assert (H : forall s' v', hex_text s' v' -> forall p r, s' = p ++ r -> p <> [] -> hex_text p (v' / 16 ^ Z.of_nat (length r))).
  { intros s' v' [N1 (ds & F & ->)] p r -> Np'. split; [exact Np'|]. destruct (digits_cut p r ds F) as (d1 & F1 & V). exists d1. split; [exact F1|]. symmetry. exact V. }
  destruct N as [N|(s' & -> & N)]; [exact (int16_hex _ _ (H s v N part rest E Np))|]. destruct part as [|p0 part]; [congruence|]. cbn [app] in E. injection E as <- E. destruct part as [|p1 part].
  - change (int16 [48]) with (@Ok Z 0). f_equal. destruct N as [_ (ds & F & ->)]. pose proof (digits_bound _ _ F 0) as B. fold (digits_value ds 0). cbn [app] in E. subst rest. cbn [length]. symmetry. apply Z.div_small. rewrite Nat2Z.inj_succ, Z.pow_succ_r by lia. lia.
  - cbn [app] in E. injection E as <- E. destruct part as [|p2 part]; [congruence|].
    pose proof (H s' v N (p2 :: part) rest E ltac:(discriminate)) as X. exact (int16_elf (48 :: 120 :: p2 :: part) _ (or_intror (ex_intro _ _ (conj eq_refl X)))). Qed.
Lemma line_exactly st kw q address encoding r a e part rest : keyword kw -> r_section st = Some (kw ++ q) -> code_ok (CInst address encoding r a e) -> code_text (CInst address encoding r a e) = part ++ rest -> part <> [] ->
  match line_left address encoding a e (length part) with
  | Ok more => exists st', elfio_line st part = Ok st' /\ r_instructions st' = r_instructions st ++ more
  | Err x => elfio_line st part = Err x
  end.
Proof. intros K S H E Np. apply keyword_facts in K as (_ & _ & NF & _ & KW). cbn [code_ok code_text] in *. destruct H as (A & En & R). destruct part as [|c part]; [congruence|]. clear Np.
  destruct (elf_chars _ _ A) as [Na Ca]. destruct address as [|a0 address]; [congruence|]. cbn [app] in E. injection E as <- E.
  assert (D : a0 <> 46) by (specialize (Ca a0 (or_introl eq_refl)); lia).
  assert (B : strip (a0 :: part) <> []) by (apply (strip_nonblank _ a0); [left; reflexivity|specialize (Ca a0 (or_introl eq_refl)); unfold is_space; lia]).
  assert (NA : ~ In 59 (a0 :: address)) by (eapply number_no; [exact A|lia]).
  unfold elfio_line. rewrite strip_case by exact B. rewrite (dot_case a0 part _ _ D). rewrite S, NF, KW. symmetry in E.
  assert (E' : (a0 :: part) ++ rest = (a0 :: address) ++ 59 :: encoding ++ match r with Some r => 59 :: r | None => [] end) by (cbn [app]; f_equal; exact E). clear E. set (tl := match r with Some r => 59 :: r | None => [] end) in *.
  unfold line_left. destruct (split_app _ _ _ _ E') as [(r1 & E1 & E2)|(r1 & E1 & N1 & _)].
  2: { rewrite split_all_none by (intros I; apply NA; rewrite E1; apply in_or_app; left; exact I). replace (length (a0 :: part) <=? length (a0 :: address))%nat with true by (rewrite E1, app_length; symmetry; apply Nat.leb_le; lia). exists st. rewrite app_nil_r. auto. }
  rewrite E1. destruct r1 as [|x r1].
  { rewrite app_nil_r, split_all_none by exact NA. rewrite Nat.leb_refl. exists st. rewrite app_nil_r. auto. }
  cbn [app] in E2. injection E2 as <- E2. symmetry in E2. rewrite split_all_at by exact NA.
  replace (length ((a0 :: address) ++ 59%Z :: r1) <=? length (a0 :: address))%nat with false by (rewrite app_length; cbn [length]; symmetry; apply Nat.leb_gt; lia).
  replace (length ((a0 :: address) ++ 59%Z :: r1) - length (a0 :: address) - 1)%nat with (length r1) by (rewrite app_length; cbn [length]; lia). cbv zeta.
  assert (Y : exists s ps miss, split_all 59 r1 = s :: ps /\ firstn (length r1) encoding = s /\ encoding = s ++ miss).
  { assert (NE : ~ In 59 encoding) by (eapply number_no; [exact En|lia]).
    destruct (split_app _ _ _ _ E2) as [(r2 & -> & E3)|(r2 & E3 & _ & _)].
    - exists encoding. rewrite firstn_all2 by (rewrite app_length; lia). destruct r2 as [|y r2].
      + rewrite app_nil_r, split_all_none by exact NE. eexists _, []. rewrite app_nil_r. auto.
      + subst tl. destruct r as [r|]; [|discriminate E3]. cbn [app] in E3. injection E3 as <- E3. rewrite split_all_at by exact NE. eexists _, []. rewrite app_nil_r. auto.
    - rewrite split_all_none by (intros I; apply NE; rewrite E3; apply in_or_app; left; exact I). exists r1, [], r2. split; [reflexivity|]. split; [|exact E3]. rewrite E3, firstn_app, Nat.sub_diag, firstn_all, app_nil_r. reflexivity. }
  destruct Y as (s & ps & miss & Y1 & Y2 & Y3). rewrite Y1, Y2. rewrite (number_left encoding e s miss En Y3).
  replace (length encoding - length s)%nat with (length miss) by (rewrite Y3 at 1; rewrite app_length; lia).
  destruct (in_dec _ _ _) as [_|_]; [reflexivity|]. cbn [bind]. rewrite (int16_elf _ _ A). cbn [bind]. eexists. split; reflexivity.
Qed.
Lemma lines_then ls part : Forall (fun l => ~ In 10 l) ls -> lines (file_of ls ++ part) = map (fun l => l ++ [10]) ls ++ lines part.
Proof. induction 1 as [|l ls N F IH]; [reflexivity|]. cbn [file_of flat_map map]. fold (file_of ls). rewrite <- !app_assoc. cbn [app]. rewrite lines_more by exact N. rewrite IH. reflexivity. Qed.

(** The listing ends within a line of its last section of code. *)
Theorem C163_exactly : forall tail table blocks name btail ls address encoding r a e part rest, ~ In 10 tail -> Forall table_ok table -> Forall block_ok (blocks ++ [Block name btail ls]) ->
  code_ok (CInst address encoding r a e) -> code_text (CInst address encoding r a e) = part ++ rest ->
  let file := file_of (listing_lines tail table (blocks ++ [Block name btail ls])) ++ part in
  match line_left address encoding a e (length part) with
  | Ok more => exists fs, elfio_read file = Ok (fs, flat_map (fun b => code_insts (b_lines b)) (blocks ++ [Block name btail ls]) ++ more)
  | Err x => elfio_read file = Err x
  end.
Proof.
  intros tail table blocks name btail ls address encoding r a e part rest N T B Ck Ep file. unfold file. rewrite read_end.
  assert (Np : ~ In 10 part) by (intros I; apply (chars_nl_code _ Ck); rewrite Ep; apply in_or_app; left; exact I).
  rewrite lines_then by (apply listing_nl; assumption). rewrite foldM_app. set (st0 := RState None [] [] None []).
  assert (G : exists st q, foldM elfio_line (map (fun l => l ++ [10]) (listing_lines tail table (blocks ++ [Block name btail ls]))) st0 = Ok st /\ r_section st = Some (name ++ q) /\
    r_instructions st = flat_map (fun b => code_insts (b_lines b)) (blocks ++ [Block name btail ls]) /\ valid st).
  { unfold listing_lines. rewrite map_cons, map_app. cbn [foldM]. destruct (line_section st0 s_function tail) as (q0 & E0); [cbn; lia|exists 102; split; [left; reflexivity|reflexivity]|].
    change [102; 117; 110; 99; 116; 105; 111; 110] with s_function. apply Forall_app in B. destruct B as [B1 B2]. inversion B2 as [|? ? Bl _]; subst. destruct Bl as (K & Nt & Cl). cbn [b_name b_tail b_lines] in *.
    assert (X : exists st q, foldM elfio_line (map (fun l => l ++ [10]) (map table_text table) ++ map (fun l => l ++ [10]) (flat_map block_text (blocks ++ [Block name btail ls]))) (set_section st0 (s_function ++ q0)) = Ok st /\ r_section st = Some (name ++ q) /\
      r_instructions st = flat_map (fun b => code_insts (b_lines b)) (blocks ++ [Block name btail ls])).
    { rewrite foldM_app, (lines_table q0 table T) by reflexivity. cbn [bind]. set (st1 := fold_left tab_step (declarations table) (set_section st0 (s_function ++ q0))).
      assert (I1 : r_instructions st1 = []) by (unfold st1; rewrite tab_step_insts; reflexivity).
      rewrite flat_map_app, map_app, foldM_app. destruct (lines_blocks blocks B1 st1 st1 ltac:(repeat split)) as (st2 & -> & (_ & _ & _ & I2)). cbn [bind]. rewrite code_step_insts, I1 in I2. cbn [app] in I2.
      cbn [flat_map]. rewrite app_nil_r. unfold block_text. cbn [b_name b_tail b_lines map foldM]. destruct (keyword_facts _ K) as (F1 & F2 & _). destruct (line_section st2 name btail F1 F2) as (q & ->). cbn [bind].
      rewrite (lines_code name q ls K Cl) by reflexivity. eexists _, q. split; [reflexivity|]. split; [rewrite code_section; reflexivity|]. rewrite code_step_insts, flat_map_app. cbn [set_section r_instructions flat_map b_lines]. rewrite I2, app_nil_r. reflexivity. }
    destruct X as (st & q & X1 & X2 & X3). exists st, q. rewrite E0. cbn [bind]. split; [exact X1|]. split; [exact X2|]. split; [exact X3|]. apply (lines_valid _ _ _ X1). constructor. }
  destruct G as (st & q & -> & S & I & V). cbn [bind]. assert (K : keyword name) by (apply Forall_app in B; destruct B as [_ B]; inversion B as [|? ? Bl _]; apply Bl). rewrite <- I.
  destruct part as [|c part].
  - cbn [length line_left Nat.leb]. change (lines []) with (@nil text). cbn [foldM]. destruct (valid_read st V) as (fs & ->). exists fs. rewrite app_nil_r. reflexivity.
  - rewrite lines_one by exact Np. pose proof (line_exactly st name q address encoding r a e (c :: part) rest K S Ck Ep ltac:(discriminate)) as L. destruct (line_left _ _ _ _ _) as [more|x].
    + destruct L as (st' & L & I'). cbn [foldM]. rewrite L. cbn [bind]. destruct (valid_read st' (line_valid _ _ _ L V)) as (fs & ->). exists fs. rewrite I'. reflexivity.
    + cbn [foldM]. rewrite L. reflexivity.
Qed.
Print Assumptions C163_exactly.
(** A line [8;0x14;...] of which more and more is left. *)
Example C163_exactly_example : code_ok (CInst [56] [48; 120; 49; 52] (Some [99]) 8 20) /\ code_text (CInst [56] [48; 120; 49; 52] (Some [99]) 8 20) = [56; 59; 48; 120; 49; 52; 59; 99] /\
  map (line_left [56] [48; 120; 49; 52] 8 20) [0; 1; 2; 3; 4; 5; 6; 7; 8]%nat = [Ok []; Ok []; Err ValueError; Ok [(0, 8)]; Err ValueError; Ok [(1, 8)]; Ok [(20, 8)]; Ok [(20, 8)]; Ok [(20, 8)]] /\ Forall block_ok (C70_blocks ++ [Block [116; 101; 120; 116] [] []]).
Proof.
  split; [|split; [reflexivity|split; [vm_compute; reflexivity|]]].
  - split; [left|split; [right; exists [49; 52]; split; [reflexivity|]|]].
    + split; [discriminate|]. exists [8]. split; [constructor; [apply (hex_decimal 8); lia|constructor]|reflexivity].
    + split; [discriminate|]. exists [1; 4]. split; [constructor; [apply (hex_decimal 1); lia|constructor; [apply (hex_decimal 4); lia|constructor]]|reflexivity].
    + intros s X. injection X as <-. cbn. lia.
  - apply Forall_app. split; [exact (proj1 (proj2 C70_example))|]. constructor; [|constructor]. split; [exact kw_text|]. split; [intros []|constructor].
Qed.
