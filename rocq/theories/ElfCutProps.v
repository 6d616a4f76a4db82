(** C163: a listing for the ELF reader of which the end is missing. *)
From Verif Require Import ListLemmas BitsModel IoModel ReaderModel ReaderSpec ReaderProofs ReaderProofs2 ReaderProps ReaderCutProps.
From Coq Require Import ZifyBool ZifyNat.

(** *** Specification *)
(** The instructions [l] read from a part of a listing with instructions [whole]: the first of them, and perhaps one more, of which the last hexadecimal digits of the encoding are missing. *)
Definition begins (l whole : list (Z * Z)) : Prop :=
  exists n, l = firstn n whole \/ exists e a k, l = firstn n whole ++ [(e / 16 ^ Z.of_nat k, a)] /\ nth_error whole n = Some (e, a).

(** *** Proof *)
Lemma hex_from_quiet s : forall acc e, parse_hex_from acc s = Err e -> e = ValueError.
Proof. induction s as [|x s IH]; intros acc e H; cbn [parse_hex_from] in H; [discriminate|]. destruct (hex_digit x); [exact (IH _ _ H)|congruence]. Qed.
Lemma hex_digits_quiet s e : hex_digits s = Err e -> e = ValueError.
Proof. unfold hex_digits. destruct s; [congruence|]. apply hex_from_quiet. Qed.
Lemma int16_quiet s e : int16 s = Err e -> e = ValueError.
Proof. unfold int16. intros H.
  assert (K : forall t, (rmap Z.opp (hex_digits (unprefix t)) = Err e -> e = ValueError) /\ (hex_digits (unprefix t) = Err e -> e = ValueError)).
  { intros t. split; [|apply hex_digits_quiet]. destruct (hex_digits (unprefix t)) eqn:E; cbn [rmap bind]; [discriminate|]. intros X. injection X as <-. exact (hex_digits_quiet _ _ E). }
  destruct (strip s) as [|c t]; [exact (proj2 (K []) H)|].
  destruct c as [|p|p]; try exact (proj2 (K _) H). repeat (destruct p as [p|p|]; try exact (proj2 (K _) H); try exact (proj1 (K _) H)). Qed.

Definition digits_value (ds : list Z) (acc : Z) : Z := fold_left (fun a d => 16 * a + d) ds acc.
Lemma digits_bound s ds : Forall2 hex_char s ds -> forall acc, 16 ^ Z.of_nat (length s) * acc <= digits_value ds acc < 16 ^ Z.of_nat (length s) * (acc + 1).
Proof. induction 1 as [|c d s ds H F IH]; intros acc; [change (digits_value [] acc) with acc; change (16 ^ Z.of_nat (@length Z [])) with 1; lia|]. unfold digits_value in *. cbn [fold_left length]. specialize (IH (16 * acc + d)). rewrite Nat2Z.inj_succ, Z.pow_succ_r by lia.
  assert (0 <= d <= 15) by (inversion H; lia). pose proof (Z.pow_pos_nonneg 16 (Z.of_nat (length s)) ltac:(lia) ltac:(lia)) as P. generalize dependent (16 ^ Z.of_nat (length s)). intros w [A B] P. split; nia. Qed.
Lemma digits_cut s t ds : Forall2 hex_char (s ++ t) ds -> exists ds1, Forall2 hex_char s ds1 /\ digits_value ds1 0 = digits_value ds 0 / 16 ^ Z.of_nat (length t).
Proof. intros F. apply Forall2_app_inv_l in F. destruct F as (d1 & d2 & F1 & F2 & ->). exists d1. split; [exact F1|]. unfold digits_value at 2. rewrite fold_left_app. fold (digits_value d1 0). fold (digits_value d2 (digits_value d1 0)).
  pose proof (digits_bound t d2 F2 (digits_value d1 0)) as B. pose proof (Z.pow_pos_nonneg 16 (Z.of_nat (length t)) ltac:(lia) ltac:(lia)) as P. generalize dependent (16 ^ Z.of_nat (length t)). intros w B P.
  apply Z.div_unique with (r := digits_value d2 (digits_value d1 0) - w * digits_value d1 0); lia. Qed.
(** A number without its end. *)
Lemma int16_cut s v part rest : elf_number s v -> s = part ++ rest -> match int16 part with Ok e => exists k, e = v / 16 ^ Z.of_nat k | Err e => e = ValueError end.
Proof. intros N E. destruct part as [|p0 part]; [reflexivity|].
  assert (H : forall s' v', hex_text s' v' -> forall p r, s' = p ++ r -> p <> [] -> hex_text p (v' / 16 ^ Z.of_nat (length r))).
  { intros s' v' [N1 (ds & F & ->)] p r -> Np. split; [exact Np|]. destruct (digits_cut p r ds F) as (d1 & F1 & V). exists d1. split; [exact F1|]. symmetry. exact V. }
  destruct N as [N|(s' & -> & N)].
  - rewrite (int16_hex _ _ (H s v N (p0 :: part) rest E ltac:(discriminate))). exists (length rest). reflexivity.
  - injection E as <- E. destruct part as [|p1 part].
    + change (int16 [48]) with (@Ok Z 0). exists (length s'). destruct N as [_ (ds & F & ->)]. pose proof (digits_bound _ _ F 0) as B. fold (digits_value ds 0). symmetry. apply Z.div_small. lia.
    + cbn [app] in E. injection E as <- E. destruct part as [|p2 part]; [reflexivity|].
      pose proof (H s' v N (p2 :: part) rest E ltac:(discriminate)) as X. rewrite (int16_elf (48 :: 120 :: p2 :: part) _ (or_intror (ex_intro _ _ (conj eq_refl X)))). exists (length rest). reflexivity. Qed.

Lemma split_all_some c s : exists x xs, split_all c s = x :: xs.
Proof. induction s as [|y s (x & xs & IH)]; cbn [split_all]; [eauto|]. destruct (y =? c); [eauto|]. rewrite IH. eauto. Qed.
Lemma split_all_dot s : exists sec, nth_r (split_all 46 (46 :: s)) 1 = Ok sec.
Proof. cbn [split_all]. rewrite Z.eqb_refl. destruct (split_all_some 46 s) as (x & xs & ->). exists x. reflexivity. Qed.
Lemma line_dot st s : exists st', elfio_line st (46 :: s) = Ok st' /\ r_instructions st' = r_instructions st.
Proof. unfold elfio_line. rewrite strip_case by (apply (strip_nonblank _ 46); [left; reflexivity|reflexivity]). destruct (split_all_dot s) as (sec & ->). cbn [bind]. eexists. split; reflexivity. Qed.
Lemma line_function st q line : r_section st = Some (s_function ++ q) -> match elfio_line st line with Ok st' => r_instructions st' = r_instructions st | Err e => e = ValueError end.
Proof. intros S. destruct line as [|c line]; [reflexivity|]. destruct (Z.eq_dec c 46) as [->|D]; [destruct (line_dot st line) as (st' & -> & E); exact E|].
  unfold elfio_line. destruct (strip (c :: line)); [reflexivity|]. rewrite (dot_case c line _ _ D). rewrite S, startswith_app.
  destruct (split_all 59 (c :: line)) as [|x [|y [|z1 l]]]; try reflexivity. destruct (int16 x) eqn:I; cbn [bind]; [reflexivity|exact (int16_quiet _ _ I)]. Qed.
Lemma all_blank s : Forall blank s -> forall st, elfio_line st s = Ok st.
Proof. intros H st. unfold elfio_line. rewrite strip_blank by exact H. reflexivity. Qed.

Lemma code_cut st kw q l part rest : keyword kw -> r_section st = Some (kw ++ q) -> code_ok l -> code_text l = part ++ rest ->
  match elfio_line st part with
  | Ok st' => exists more, r_instructions st' = r_instructions st ++ more /\ (more = [] \/ exists e a k, more = [(e / 16 ^ Z.of_nat k, a)] /\ code_insts [l] = [(e, a)])
  | Err e => e = ValueError end.
Proof. intros K S H E. apply keyword_facts in K as (_ & _ & NF & _ & KW).
  destruct l as [ws|address encoding r a e]; cbn [code_ok code_text code_insts flat_map app] in *.
  { destruct H as [H _]. rewrite E in H. apply Forall_app in H. rewrite all_blank by (apply H). exists []. rewrite app_nil_r. auto. }
  destruct H as (A & En & R). destruct part as [|c part]; [exists []; rewrite app_nil_r; auto|].
  destruct (elf_chars _ _ A) as [Na Ca]. destruct address as [|a0 address]; [congruence|]. cbn [app] in E. injection E as <- E.
  assert (D : a0 <> 46) by (specialize (Ca a0 (or_introl eq_refl)); lia).
  assert (B : strip (a0 :: part) <> []) by (apply (strip_nonblank _ a0); [left; reflexivity|specialize (Ca a0 (or_introl eq_refl)); unfold is_space; lia]).
  assert (NA : ~ In 59 (a0 :: address)) by (eapply number_no; [exact A|lia]).
  unfold elfio_line. rewrite strip_case by exact B. rewrite (dot_case a0 part _ _ D). rewrite S, NF, KW. symmetry in E.
  assert (E' : (a0 :: part) ++ rest = (a0 :: address) ++ 59 :: encoding ++ match r with Some r => 59 :: r | None => [] end) by (cbn [app]; f_equal; exact E). clear E. set (tl := match r with Some r => 59 :: r | None => [] end) in *.
  destruct (split_app _ _ _ _ E') as [(r1 & E1 & E2)|(r1 & E1 & _ & _)].
  2: { rewrite split_all_none by (intros I; apply NA; rewrite E1; apply in_or_app; left; exact I). exists []. rewrite app_nil_r. auto. }
  rewrite E1. destruct r1 as [|x r1]; [rewrite app_nil_r, split_all_none by exact NA; exists []; rewrite app_nil_r; auto|]. cbn [app] in E2. injection E2 as <- E2. symmetry in E2. rewrite split_all_at by exact NA.
  assert (Y : exists s ps, split_all 59 r1 = s :: ps /\ match int16 s with Ok e' => exists k, e' = e / 16 ^ Z.of_nat k | Err x => x = ValueError end).
  { assert (NE : ~ In 59 encoding) by (eapply number_no; [exact En|lia]).
    destruct (split_app _ _ _ _ E2) as [(r2 & -> & E3)|(r2 & E3 & _ & _)].
    - destruct r2 as [|y r2].
      + rewrite app_nil_r, split_all_none by exact NE. eexists _, _. split; [reflexivity|]. apply (int16_cut encoding e encoding []); [exact En|symmetry; apply app_nil_r].
      + subst tl. destruct r as [r|]; [|discriminate E3]. cbn [app] in E3. injection E3 as <- E3. rewrite split_all_at by exact NE. eexists _, _. split; [reflexivity|]. apply (int16_cut encoding e encoding []); [exact En|symmetry; apply app_nil_r].
    - rewrite split_all_none by (intros I; apply NE; rewrite E3; apply in_or_app; left; exact I). eexists _, _. split; [reflexivity|]. apply (int16_cut encoding e r1 r2); assumption. }
  destruct Y as (s & ps & Y & Z1). rewrite Y. destruct (int16 s) as [e'|x]; cbn [bind]; [|exact Z1]. rewrite (int16_elf _ _ A). cbn [bind]. destruct Z1 as (k & ->). exists [(e / 16 ^ Z.of_nat k, a)]. split; [reflexivity|]. right. exists e, a, k. split; reflexivity. Qed.

(** The lines of a listing below the first, with the instructions of the code sections. *)
Inductive part_of : bool -> list text -> list inst -> Prop :=
| po_nil b : part_of b [] []
| po_code b kw tail ls is_ : keyword kw -> ~ In 10 tail -> part_of true ls is_ -> part_of b ((46 :: kw ++ tail) :: ls) is_
| po_tab t ls is_ : table_ok t -> part_of false ls is_ -> part_of false (table_text t :: ls) is_
| po_inst c ls is_ : code_ok c -> part_of true ls is_ -> part_of true (code_text c :: ls) (code_insts [c] ++ is_).
Definition section_is (b : bool) (st : rstate) : Prop := exists kw q, r_section st = Some (kw ++ q) /\ (if b then keyword kw else kw = s_function).

Lemma begins_nil w : begins [] w.
Proof. exists 0%nat. left. reflexivity. Qed.
Lemma begins_app p l w : begins l w -> begins (p ++ l) (p ++ w).
Proof. intros (n & [->|(e & a & k & -> & N)]); exists (length p + n)%nat; rewrite firstn_app_2; [left; reflexivity|]. right. exists e, a, k. split; [apply app_assoc|]. rewrite nth_error_app2 by lia. replace (length p + n - length p)%nat with n by lia. exact N. Qed.
Lemma first_line l s cut rest : ~ In 10 l -> l ++ 10 :: s = cut ++ rest -> (exists cut', cut = l ++ 10 :: cut' /\ s = cut' ++ rest) \/ (exists r, l = cut ++ r).
Proof. intros N E. symmetry in E. destruct (split_app _ _ _ _ E) as [(r & -> & E1)|(r & E1 & _ & _)]; [|right; exists r; exact E1].
  destruct r as [|x r]; [right; exists []; rewrite !app_nil_r; reflexivity|]. cbn [app] in E1. injection E1 as <- E1. left. exists r. split; [reflexivity|exact E1]. Qed.
Lemma lines_one part : ~ In 10 part -> lines part = match part with [] => [] | _ => [part] end.
Proof. intros N. unfold lines. rewrite lines_last by exact N. reflexivity. Qed.
Lemma lines_more l cut : ~ In 10 l -> lines (l ++ 10 :: cut) = (l ++ [10]) :: lines cut.
Proof. intros N. unfold lines. rewrite lines_from_line by exact N. reflexivity. Qed.
Lemma code_step_insts is_ : forall st, r_instructions (fold_left code_step is_ st) = r_instructions st ++ is_.
Proof. induction is_ as [|i is_ IH]; intros st; cbn [fold_left]; [rewrite app_nil_r; reflexivity|]. rewrite IH. unfold code_step. cbn [r_instructions]. rewrite <- app_assoc. reflexivity. Qed.
Lemma tab_step_insts ds : forall st, r_instructions (fold_left tab_step ds st) = r_instructions st.
Proof. induction ds as [|i ds IH]; intros st; cbn [fold_left]; [reflexivity|]. rewrite IH. reflexivity. Qed.

Lemma part_cut b ls is_ : part_of b ls is_ -> forall st cut rest, section_is b st -> file_of ls = cut ++ rest ->
  match foldM elfio_line (lines cut) st with Ok st' => exists l, r_instructions st' = r_instructions st ++ l /\ begins l is_ | Err e => e = ValueError end.
Proof. induction 1 as [b|b kw tail ls is_ K Nt P IH|t ls is_ Tk P IH|c ls is_ Ck P IH]; intros st cut rest S E.
  - destruct cut; [|discriminate E]. exists []. rewrite app_nil_r. split; [reflexivity|apply begins_nil].
  - cbn [file_of flat_map] in E. fold (file_of ls) in E. rewrite <- app_assoc in E. cbn [app] in E. destruct (keyword_facts _ K) as (F1 & F2 & _ & F3 & _).
    assert (Nl : ~ In 10 (46 :: kw ++ tail)) by (intros [X|X]; [discriminate|]; apply in_app_or in X; tauto).
    destruct (first_line (46 :: kw ++ tail) (file_of ls) cut rest Nl E) as [(cut' & -> & E1)|(r & E1)].
    + rewrite lines_more by exact Nl. cbn [foldM]. destruct (line_section st kw tail F1 F2) as (q & ->). cbn [bind]. apply (IH (set_section st (kw ++ q)) cut' rest); [|exact E1]. exists kw, q. split; [reflexivity|exact K].
    + rewrite lines_one by (intros X; apply Nl; rewrite E1; apply in_or_app; left; exact X). destruct cut as [|x cut]; cbn [foldM]; [exists []; rewrite app_nil_r; split; [reflexivity|apply begins_nil]|]. injection E1 as <- _.
      destruct (line_dot st cut) as (st' & -> & I). cbn [bind]. exists []. rewrite app_nil_r. split; [exact I|apply begins_nil].
  - cbn [file_of flat_map] in E. fold (file_of ls) in E. rewrite <- app_assoc in E. cbn [app] in E. pose proof (chars_nl_table _ Tk) as Nl. destruct S as (kw & q & S & ->).
    destruct (first_line _ (file_of ls) cut rest Nl E) as [(cut' & -> & E1)|(r & E1)].
    + rewrite lines_more by exact Nl. cbn [foldM]. rewrite (line_table st q t S Tk). cbn [bind]. specialize (IH (fold_left tab_step (declarations [t]) st) cut' rest). rewrite tab_step_insts in IH. apply IH; [|exact E1]. exists s_function, q. rewrite tab_section. split; [exact S|reflexivity].
    + rewrite lines_one by (intros X; apply Nl; rewrite E1; apply in_or_app; left; exact X). destruct cut as [|x cut]; cbn [foldM]; [exists []; rewrite app_nil_r; split; [reflexivity|apply begins_nil]|].
      pose proof (line_function st q (x :: cut) S) as L. destruct (elfio_line st (x :: cut)) as [st'|]; cbn [bind]; [|exact L]. exists []. rewrite app_nil_r. split; [exact L|apply begins_nil].
  - cbn [file_of flat_map] in E. fold (file_of ls) in E. rewrite <- app_assoc in E. cbn [app] in E. pose proof (chars_nl_code _ Ck) as Nl. destruct S as (kw & q & S & K).
    destruct (first_line _ (file_of ls) cut rest Nl E) as [(cut' & -> & E1)|(r & E1)].
    + rewrite lines_more by exact Nl. cbn [foldM]. rewrite (line_code st kw q c K S Ck). cbn [bind]. specialize (IH (fold_left code_step (code_insts [c]) st) cut' rest). rewrite code_step_insts in IH. match type of IH with ?A -> _ -> _ => assert (Ha : A) by (exists kw, q; rewrite code_section; split; assumption) end. specialize (IH Ha E1).
      destruct (foldM _ _ _) as [st'|]; [|exact IH]. destruct IH as (l & I & Bg). exists (code_insts [c] ++ l). split; [rewrite I, app_assoc; reflexivity|]. apply begins_app. exact Bg.
    + rewrite lines_one by (intros X; apply Nl; rewrite E1; apply in_or_app; left; exact X). destruct cut as [|x cut]; cbn [foldM]; [exists []; rewrite app_nil_r; split; [reflexivity|apply begins_nil]|].
      pose proof (code_cut st kw q c (x :: cut) r K S Ck E1) as L. destruct (elfio_line st (x :: cut)) as [st'|]; cbn [bind]; [|exact L]. destruct L as (more & I & [->|(e & a & k & -> & C)]).
      * exists []. split; [exact I|apply begins_nil].
      * eexists. split; [exact I|]. rewrite C. exists 0%nat. right. exists e, a, k. split; reflexivity. Qed.

(** The function table always points at existing functions. *)
Definition valid (st : rstate) : Prop := Forall (fun f => (f < length (r_objects st))%nat) (dvalues (r_functions st)).
Lemma dvalues_dset_sub {A} (d : dict A) k v x : In x (dvalues (dset d k v)) -> x = v \/ In x (dvalues d).
Proof. induction d as [|[k' a] d IH]; cbn [dset dvalues map snd]; [intros [<-|[]]; auto|]. destruct (k =? k'); cbn [map snd]; intros [<-|I]; auto; [right; right; exact I|right; left; reflexivity|]. destruct (IH I); [left|right; right]; assumption. Qed.
Lemma append_nth_length fs k i : length (append_nth fs k i) = length fs.
Proof. revert k. induction fs as [|[n l] fs IH]; intros [|k]; cbn [append_nth length]; auto. Qed.
Lemma line_valid st line st' : elfio_line st line = Ok st' -> valid st -> valid st'.
Proof. unfold elfio_line. destruct (strip line) as [|s0 s]; [congruence|]. intros H V.
  assert (K : match r_section st with
      | None => Err AttributeError
      | Some section =>
        if startswith s_function section then
          match split_all 59 line with
          | [address; name] =>
              let* a := int16 address in
              Ok (RState (r_section st) (r_objects st ++ [(rstrip name, [])]) (dset (r_functions st) a (length (r_objects st))) (r_current st) (r_instructions st))
          | _ => Err ValueError
          end
        else if startswith s_init section || startswith s_text section || startswith s_plt section || startswith s_fini section then
          match split_all 59 line with
          | address :: encoding :: _ =>
              let* e := int16 encoding in
              let* a := int16 address in
              let i := (e, a) in
              let current := match dget (r_functions st) a with Some f => Some f | None => r_current st end in
              let objects := match current with Some f => append_nth (r_objects st) f i | None => r_objects st end in
              Ok (RState (r_section st) objects (r_functions st) current (r_instructions st ++ [i]))
          | _ => Ok st
          end
        else Ok st
      end = Ok st' -> valid st').
  { clear H. intros H. destruct (r_section st) as [sec|]; [|discriminate]. destruct (startswith s_function sec).
    - destruct (split_all 59 line) as [|x [|y [|z l]]]; try discriminate. destruct (int16 x) as [a|]; cbn [bind] in H; [|discriminate]. injection H as <-. unfold valid in *. cbn [r_objects r_functions]. rewrite app_length. cbn [length]. rewrite Forall_forall in *. intros f I. apply dvalues_dset_sub in I. destruct I as [->|I]; [lia|]. specialize (V f I). lia.
    - destruct (_ || _); [|injection H as <-; exact V]. destruct (split_all 59 line) as [|x [|y l]]; try (injection H as <-; exact V). destruct (int16 y) as [e|]; cbn [bind] in H; [|discriminate]. destruct (int16 x) as [a|]; cbn [bind] in H; [|discriminate]. cbv zeta in H. injection H as <-. unfold valid in *. cbn [r_objects r_functions].
      destruct (match dget (r_functions st) a with Some f => Some f | None => r_current st end); [rewrite append_nth_length|]; exact V. }
  destruct line as [|c line]; [exact (K H)|]. destruct (Z.eq_dec c 46) as [->|D].
  - destruct (nth_r _ 1) as [sec|]; cbn [bind] in H; [|discriminate]. injection H as <-. exact V.
  - rewrite (dot_case c line _ _ D) in H. exact (K H). Qed.
Lemma lines_valid ls : forall st st', foldM elfio_line ls st = Ok st' -> valid st -> valid st'.
Proof. induction ls as [|l ls IH]; intros st st' H V; cbn [foldM] in H; [injection H as <-; exact V|]. destruct (elfio_line st l) as [s1|] eqn:E; cbn [bind] in H; [|discriminate]. apply (IH s1 st' H). exact (line_valid _ _ _ E V). Qed.
Lemma valid_read st : valid st -> exists fs, mapM (fun f => nth_r (r_objects st) f) (dvalues (r_functions st)) = Ok fs.
Proof. unfold valid. induction 1 as [|f l H F IH]; cbn [mapM]; [eauto|]. unfold nth_r at 1. destruct (nth_error (r_objects st) f) eqn:E; [|apply nth_error_None in E; lia]. cbn [bind]. destruct IH as (fs & ->). cbn [bind]. eauto. Qed.
Lemma read_end file : elfio_read file = match foldM elfio_line (lines file) (RState None [] [] None []) with Ok st => match mapM (fun f => nth_r (r_objects st) f) (dvalues (r_functions st)) with Ok fs => Ok (fs, r_instructions st) | Err e => Err e end | Err e => Err e end.
Proof. unfold elfio_read. destruct (foldM _ _ _); cbn [bind]; [|reflexivity]. destruct (mapM _ _); reflexivity. Qed.

Lemma part_blocks blocks : Forall block_ok blocks -> forall b, part_of b (flat_map block_text blocks) (flat_map (fun b => code_insts (b_lines b)) blocks).
Proof. induction 1 as [|bl blocks (K & N & C) F IH]; intros b; [constructor|]. cbn [flat_map]. unfold block_text at 1. cbn [app]. constructor; [exact K|exact N|].
  revert C. generalize (b_lines bl). intros ls0 C. induction C as [|c ls Hc C IHc]; cbn [map app]; [apply IH|]. replace (code_insts (c :: ls)) with (code_insts [c] ++ code_insts ls) by (unfold code_insts; cbn [flat_map]; rewrite app_nil_r; reflexivity). rewrite <- app_assoc. constructor; assumption. Qed.
Lemma part_listing table blocks : Forall table_ok table -> Forall block_ok blocks -> part_of false (map table_text table ++ flat_map block_text blocks) (flat_map (fun b => code_insts (b_lines b)) blocks).
Proof. intros T B. induction T as [|t table Ht T IH]; cbn [map app]; [apply part_blocks; exact B|]. constructor; assumption. Qed.

(** C163.  A listing cut anywhere is refused with ValueError, or read as its first instructions, the last perhaps without some digits. *)
Theorem C163_cut_partial : forall tail table blocks cut rest, ~ In 10 tail -> Forall table_ok table -> Forall block_ok blocks ->
  file_of (listing_lines tail table blocks) = cut ++ rest ->
  match elfio_read cut with
  | Ok (fs, l) => begins l (flat_map (fun b => code_insts (b_lines b)) blocks)
  | Err e => e = ValueError
  end.
Proof. intros tail table blocks cut rest N T B E. rewrite read_end. set (st0 := RState None [] [] None []).
  assert (H : match foldM elfio_line (lines cut) st0 with Ok st' => exists l, r_instructions st' = r_instructions st0 ++ l /\ begins l (flat_map (fun b => code_insts (b_lines b)) blocks) | Err e => e = ValueError end).
  { unfold listing_lines in E. cbn [file_of flat_map] in E. fold (file_of (map table_text table ++ flat_map block_text blocks)) in E. rewrite <- app_assoc in E. cbn [app] in E.
    change (46 :: s_function ++ tail ++ 10 :: file_of (map table_text table ++ flat_map block_text blocks) = cut ++ rest) in E.
    assert (Nl : ~ In 10 (46 :: s_function ++ tail)) by (intros [X|X]; [discriminate|]; apply in_app_or in X; destruct X as [X|X]; [cbn in X; lia|auto]).
    replace (46 :: s_function ++ tail ++ 10 :: file_of (map table_text table ++ flat_map block_text blocks)) with ((46 :: s_function ++ tail) ++ 10 :: file_of (map table_text table ++ flat_map block_text blocks)) in E by (cbn [app]; rewrite <- app_assoc; reflexivity).
    destruct (first_line _ _ cut rest Nl E) as [(cut' & -> & E1)|(r & E1)].
    - rewrite lines_more by exact Nl. cbn [foldM]. destruct (line_section st0 s_function tail) as (q & ->); [cbn; lia|exists 102; split; [left; reflexivity|reflexivity]|]. cbn [bind]. apply (part_cut _ _ _ (part_listing table blocks T B) (set_section st0 (s_function ++ q)) cut' rest); [|exact E1]. exists s_function, q. split; reflexivity.
    - rewrite lines_one by (intros X; apply Nl; rewrite E1; apply in_or_app; left; exact X). destruct cut as [|x cut]; cbn [foldM]; [exists []; split; [reflexivity|apply begins_nil]|]. injection E1 as <- _.
      destruct (line_dot st0 cut) as (st' & -> & I). cbn [bind]. exists []. rewrite app_nil_r. split; [exact I|apply begins_nil]. }
  destruct (foldM _ _ _) as [st'|] eqn:F; [|exact H]. destruct (valid_read st') as (fs & ->); [apply (lines_valid _ _ _ F); constructor|]. destruct H as (l & -> & Bg). exact Bg. Qed.
Print Assumptions C163_cut_partial.
(** But a line cut within the encoding is read as another instruction. *)
Theorem C163_cut_refuted : exists tail table blocks cut rest fs l i, ~ In 10 tail /\ Forall table_ok table /\ Forall block_ok blocks /\ file_of (listing_lines tail table blocks) = cut ++ rest /\
  elfio_read cut = Ok (fs, l) /\ In i l /\ ~ In i (flat_map (fun b => code_insts (b_lines b)) blocks).
Proof. exists [], [], [Block [116; 101; 120; 116] [] [CInst [56] [49; 52] None 8 20]], (firstn 19 (file_of (listing_lines [] [] [Block [116; 101; 120; 116] [] [CInst [56] [49; 52] None 8 20]]))). eexists _, _, _, (1, 8).
  split; [intros []|]. split; [constructor|]. split.
  { constructor; [|constructor]. split; [exact kw_text|]. split; [intros []|]. constructor; [|constructor]. split; [left|split; [left|discriminate]].
    - split; [discriminate|]. exists [8]. split; [constructor; [apply (hex_decimal 8); lia|constructor]|reflexivity].
    - split; [discriminate|]. exists [1; 4]. split; [constructor; [apply (hex_decimal 1); lia|constructor; [apply (hex_decimal 4); lia|constructor]]|reflexivity]. }
  split; [symmetry; apply firstn_skipn|]. split; [vm_compute; reflexivity|]. split; [left; reflexivity|]. vm_compute. intuition discriminate. Qed.
Print Assumptions C163_cut_refuted.
Example C163_example : let file := file_of (listing_lines [115] C70_table C70_blocks) in Forall table_ok C70_table /\ Forall block_ok C70_blocks /\
  map (fun n => rmap snd (elfio_read (firstn n file))) [5%nat; 12%nat; 28%nat; 38%nat; 44%nat; 60%nat; 80%nat] = [Ok []; Err ValueError; Err ValueError; Ok []; Ok [(10, 8)]; Ok [(10, 8); (11, 16)]; Ok [(10, 8); (11, 16); (12, 20); (13, 28)]].
Proof. split; [exact (proj1 C70_example)|]. split; [exact (proj1 (proj2 C70_example))|]. vm_compute. reflexivity. Qed.
