(** Proofs about the ELF listing reader. *)
From Verif Require Import ListLemmas HuffmanModel HuffmanProps.
From Verif Require Export ReaderProofs HuffmanSpec.
From Coq Require Import ZifyBool ZifyNat.

Lemma strip_blank s : Forall blank s -> strip s = [].
Proof.
  intros H. assert (D : forall t, Forall blank t -> drop_while is_space t = []).
  { induction 1 as [|c t B _ IH]; [reflexivity|]. cbn. apply is_space_blank in B. now rewrite B. }
  unfold strip. rewrite D by auto. reflexivity.
Qed.
Lemma strip_nonblank s c : In c s -> is_space c = false -> strip s <> [].
Proof.
  intros I N E. unfold strip in E. assert (K : forall t, In c t -> In c (drop_while is_space t)).
  { induction t as [|x t IH]; [auto|]. intros J. cbn. destruct (is_space x) eqn:X; [|exact J]. destruct J as [->|J]; [congruence|auto]. }
  assert (In c (rstrip (drop_while is_space s))). { unfold rstrip. rewrite <- in_rev. apply K. rewrite <- in_rev. auto. }
  rewrite E in H. destruct H.
Qed.
Lemma strip_case {A} (s : text) (u v : A) : strip s <> [] -> match strip s with [] => u | _ => v end = v.
Proof. destruct (strip s); [congruence|reflexivity]. Qed.
Lemma dot_case {A} (c : Z) (s : text) (u v : A) : c <> 46 -> match c :: s with 46 :: _ => u | _ => v end = v.
Proof. intros N. destruct c as [|p|p]; try reflexivity. repeat (destruct p as [p|p|]; try reflexivity). congruence. Qed.

Definition set_section (st : rstate) (sec : text) : rstate := RState (Some sec) (r_objects st) (r_functions st) (r_current st) (r_instructions st).
Definition tab_step (st : rstate) (d : Z * text) : rstate :=
  RState (r_section st) (r_objects st ++ [(snd d, [])]) (dset (r_functions st) (fst d) (length (r_objects st))) (r_current st) (r_instructions st).
Definition code_step (st : rstate) (i : inst) : rstate :=
  let current := match dget (r_functions st) (snd i) with Some f => Some f | None => r_current st end in
  RState (r_section st) (match current with Some f => append_nth (r_objects st) f i | None => r_objects st end) (r_functions st) current (r_instructions st ++ [i]).

Lemma line_section st kw tail : ~ In 46 kw -> (exists c, In c kw /\ is_space c = false) ->
  exists q, elfio_line st ((46 :: kw ++ tail) ++ [10]) = Ok (set_section st (kw ++ q)).
Proof.
  intros N (c & I & S). unfold elfio_line. rewrite strip_case by (apply (strip_nonblank _ c); [right; rewrite <- app_assoc; apply in_app_iff; auto|auto]).
  cbn [app]. destruct (split_all_first 46 kw (tail ++ [10]) N) as (q & ps & E). exists q.
  rewrite <- app_assoc. change (split_all 46 (46 :: kw ++ tail ++ [10])) with ([] :: split_all 46 (kw ++ tail ++ [10])). rewrite E. reflexivity.
Qed.
Lemma line_blank st ws : Forall blank ws -> elfio_line st (ws ++ [10]) = Ok st.
Proof. intros H. unfold elfio_line. rewrite strip_blank; [reflexivity|]. apply Forall_app; split; [auto|]. constructor; [|constructor]. unfold blank; cbn; tauto. Qed.
Lemma number_line s v r : elf_number s v -> exists c t, s ++ r = c :: t /\ c <> 46 /\ strip (s ++ r) <> [].
Proof.
  intros H. destruct (elf_chars _ _ H) as [N C]. destruct s as [|c s]; [congruence|]. exists c, (s ++ r). split; [reflexivity|].
  specialize (C c (or_introl eq_refl)). split; [lia|]. apply (strip_nonblank _ c); [left; auto|]. unfold is_space. lia.
Qed.
Lemma number_no s v c : elf_number s v -> ~ (48 <= c <= 57 \/ 65 <= c <= 70 \/ 97 <= c <= 102 \/ c = 120) -> ~ In c s.
Proof. intros H N I. destruct (elf_chars _ _ H) as [_ C]. auto. Qed.
Lemma line_table st q l : r_section st = Some (s_function ++ q) -> table_ok l ->
  elfio_line st (table_text l ++ [10]) = Ok (fold_left tab_step (declarations [l]) st).
Proof.
  intros S H. destruct l as [ws|address name a]; cbn [table_ok table_text declarations flat_map fold_left app] in *; [apply line_blank, H|].
  destruct H as (A & N1 & N2 & N3). unfold elfio_line. rewrite <- app_assoc. cbn [app].
  destruct (number_line _ _ (59 :: name ++ [10]) A) as (c & t & E & D & B). rewrite strip_case by auto.
  rewrite E, dot_case by auto. rewrite <- E, S, startswith_app.
  rewrite split_all_at by (eapply number_no; eauto; lia).
  rewrite split_all_none by (intros I; apply in_app_iff in I as [I|[I|[]]]; [auto|discriminate]).
  rewrite (int16_elf _ _ A). cbn [bind]. unfold tab_step. cbn [fst snd].
  rewrite rstrip_line, rstrip_keep; [now rewrite S|]. intros p c0 X. destruct (is_space c0) eqn:Y; [|reflexivity]. apply is_space_blank in Y. now apply N3 in X.
Qed.
Lemma keyword_facts kw : keyword kw -> ~ In 46 kw /\ (exists c, In c kw /\ is_space c = false) /\ (forall q, startswith s_function (kw ++ q) = false) /\ ~ In 10 kw /\
  forall q, startswith s_init (kw ++ q) || startswith s_text (kw ++ q) || startswith s_plt (kw ++ q) || startswith s_fini (kw ++ q) = true.
Proof.
  destruct 1; (split; [cbn; lia|split; [eexists; split; [left; reflexivity|reflexivity]|split; [intros q; reflexivity|split; [cbn; lia|]]]]); intros q.
  - change (startswith s_init ([105; 110; 105; 116] ++ q)) with true. reflexivity.
  - change (startswith s_text ([116; 101; 120; 116] ++ q)) with true. now rewrite orb_true_r.
  - change (startswith s_plt ([112; 108; 116] ++ q)) with true. now rewrite orb_true_r.
  - change (startswith s_fini ([102; 105; 110; 105] ++ q)) with true. now rewrite orb_true_r.
Qed.
Lemma line_code st kw q l : keyword kw -> r_section st = Some (kw ++ q) -> code_ok l ->
  elfio_line st (code_text l ++ [10]) = Ok (fold_left code_step (code_insts [l]) st).
Proof.
  intros K S H. apply keyword_facts in K as (_ & _ & NF & _ & KW).
  destruct l as [ws|address encoding rest a e]; cbn [code_ok code_text code_insts flat_map fold_left app] in *; [apply line_blank, H|].
  destruct H as (A & E & R). unfold elfio_line. rewrite <- app_assoc. cbn [app].
  destruct (number_line _ _ (59 :: (encoding ++ match rest with Some r => 59 :: r | None => [] end) ++ [10]) A) as (c & t & X & D & B). rewrite strip_case by auto.
  rewrite X, dot_case by auto. rewrite <- X, S, NF, KW.
  rewrite split_all_at by (eapply number_no; eauto; lia).
  assert (Y : exists s ps, split_all 59 ((encoding ++ match rest with Some r => 59 :: r | None => [] end) ++ [10]) = s :: ps /\ int16 s = Ok e).
  { destruct rest as [r|].
    - rewrite <- app_assoc. cbn [app]. rewrite split_all_at by (eapply number_no; eauto; lia). eexists _, _. split; [reflexivity|]. now apply int16_elf.
    - rewrite app_nil_r. rewrite split_all_none.
      + eexists _, _. split; [reflexivity|].
        assert (Z1 : forall s v, elf_number s v -> strip (s ++ [10]) = strip s).
        { intros s v Hs. unfold strip. destruct (elf_chars _ _ Hs) as [Ns Cs]. destruct s as [|c0 s]; [congruence|]. cbn [app drop_while].
          assert (is_space c0 = false) as -> by (specialize (Cs c0 (or_introl eq_refl)); unfold is_space; lia).
          change (c0 :: s ++ [10]) with ((c0 :: s) ++ [10]). apply rstrip_line. }
        unfold int16. rewrite (Z1 _ _ E). fold (int16 encoding). now apply int16_elf.
      + intros I. apply in_app_iff in I as [I|[I|[]]]; [|discriminate]. revert I. eapply number_no; eauto; lia. }
  destruct Y as (s & ps & Y & Z1). rewrite Y, Z1. cbn [bind]. rewrite (int16_elf _ _ A). cbn [bind]. unfold code_step. cbn [snd].
  destruct (dget (r_functions st) a) eqn:G; rewrite ?G; now rewrite S.
Qed.

Lemma tab_section ds : forall st, r_section (fold_left tab_step ds st) = r_section st.
Proof. induction ds as [|d ds IH]; intros st; [reflexivity|]. cbn [fold_left]. rewrite IH. reflexivity. Qed.
Lemma code_section is_ : forall st, r_section (fold_left code_step is_ st) = r_section st.
Proof. induction is_ as [|d ds IH]; intros st; [reflexivity|]. cbn [fold_left]. rewrite IH. reflexivity. Qed.
Lemma lines_table q ls : Forall table_ok ls -> forall st, r_section st = Some (s_function ++ q) ->
  foldM elfio_line (map (fun l => l ++ [10]) (map table_text ls)) st = Ok (fold_left tab_step (declarations ls) st).
Proof.
  induction 1 as [|l ls H _ IH]; intros st S; [reflexivity|]. cbn [map foldM]. rewrite (line_table st q) by auto. cbn [bind].
  rewrite IH by (rewrite tab_section; auto). rewrite <- fold_left_app. unfold declarations. cbn [flat_map]. now rewrite app_nil_r.
Qed.
Lemma lines_code kw q ls : keyword kw -> Forall code_ok ls -> forall st, r_section st = Some (kw ++ q) ->
  foldM elfio_line (map (fun l => l ++ [10]) (map code_text ls)) st = Ok (fold_left code_step (code_insts ls) st).
Proof.
  intros K. induction 1 as [|l ls H _ IH]; intros st S; [reflexivity|]. cbn [map foldM]. rewrite (line_code st kw q) by auto. cbn [bind].
  rewrite IH by (rewrite code_section; auto). rewrite <- fold_left_app. unfold code_insts. cbn [flat_map]. now rewrite app_nil_r.
Qed.
(** States up to the current section. *)
Definition same (s t : rstate) : Prop := r_objects s = r_objects t /\ r_functions s = r_functions t /\ r_current s = r_current t /\ r_instructions s = r_instructions t.
Lemma code_same is_ : forall s t, same s t -> same (fold_left code_step is_ s) (fold_left code_step is_ t).
Proof.
  induction is_ as [|i is_ IH]; intros s t H; [exact H|]. cbn [fold_left]. apply IH. destruct H as (A & B & C & D).
  unfold same, code_step. cbn. now rewrite A, B, C, D.
Qed.
Lemma lines_blocks bs : Forall block_ok bs -> forall st t, same st t ->
  exists st', foldM elfio_line (map (fun l => l ++ [10]) (flat_map block_text bs)) st = Ok st' /\ same st' (fold_left code_step (flat_map (fun b => code_insts (b_lines b)) bs) t).
Proof.
  induction 1 as [|b bs (K & N & C) _ IH]; intros st t S; [exists st; split; [reflexivity|exact S]|].
  cbn [flat_map]. rewrite map_app, foldM_app. unfold block_text at 1. cbn [map foldM].
  destruct (keyword_facts _ K) as (F1 & F2 & _). destruct (line_section st (b_name b) (b_tail b) F1 F2) as (q & E). rewrite E. cbn [bind].
  rewrite (lines_code (b_name b) q) by auto. cbn [bind]. rewrite fold_left_app. apply IH. apply code_same. exact S.
Qed.
Lemma chars_nl_table l : table_ok l -> ~ In 10 (table_text l).
Proof.
  destruct l as [ws|address name a]; cbn; [tauto|]. intros (A & _ & N & _) I. apply in_app_iff in I as [I|[I|I]]; [|discriminate|auto].
  revert I. eapply number_no; eauto; lia.
Qed.
Lemma chars_nl_code l : code_ok l -> ~ In 10 (code_text l).
Proof.
  destruct l as [ws|address encoding rest a e]; cbn; [tauto|]. intros (A & E & R) I. apply in_app_iff in I as [I|[I|I]]; [|discriminate|].
  - revert I. eapply number_no; eauto; lia.
  - apply in_app_iff in I as [I|I]; [revert I; eapply number_no; eauto; lia|]. destruct rest as [r|]; [|destruct I]. destruct I as [I|I]; [discriminate|]. eapply R; eauto.
Qed.
Lemma listing_nl tail table blocks : ~ In 10 tail -> Forall table_ok table -> Forall block_ok blocks -> Forall (fun l => ~ In 10 l) (listing_lines tail table blocks).
Proof.
  intros N T B. unfold listing_lines. constructor; [|apply Forall_app; split].
  - intros [I|I]; [discriminate|]. apply in_app_iff in I as [I|I]; [cbn in I; lia|auto].
  - rewrite Forall_map. eapply Forall_impl; [|exact T]. apply chars_nl_table.
  - apply Forall_flat_map. eapply Forall_impl; [|exact B]. intros b (K & Nt & C). unfold block_text. constructor.
    + apply keyword_facts in K as (_ & _ & _ & K & _). intros [I|I]; [discriminate|]. apply in_app_iff in I as [I|I]; auto.
    + rewrite Forall_map. eapply Forall_impl; [|exact C]. apply chars_nl_code.
Qed.
Lemma read_listing tail table blocks : ~ In 10 tail -> Forall table_ok table -> Forall block_ok blocks ->
  exists st, same st (fold_left code_step (flat_map (fun b => code_insts (b_lines b)) blocks) (fold_left tab_step (declarations table) (RState None [] [] None []))) /\
    elfio_read (file_of (listing_lines tail table blocks)) =
      (let* functions := mapM (fun f => nth_r (r_objects st) f) (dvalues (r_functions st)) in Ok (functions, r_instructions st)).
Proof.
  intros N T B. unfold elfio_read. rewrite lines_file by (apply listing_nl; auto). unfold listing_lines. rewrite map_cons, map_app. cbn [foldM].
  destruct (line_section (RState None [] [] None []) s_function tail) as (q & E).
  { cbn; lia. } { exists 102. split; [cbn; tauto|reflexivity]. }
  change [102; 117; 110; 99; 116; 105; 111; 110] with s_function. rewrite E. cbn [bind].
  rewrite foldM_app. rewrite (lines_table q) by auto. cbn [bind].
  destruct (lines_blocks blocks B (fold_left tab_step (declarations table) (set_section (RState None [] [] None []) (s_function ++ q)))
    (fold_left tab_step (declarations table) (RState None [] [] None []))) as (st & F & S).
  - generalize (declarations table). intros ds.
    assert (G : forall ds s t, same s t -> same (fold_left tab_step ds s) (fold_left tab_step ds t)).
    { induction ds0 as [|d ds0 IH]; intros s t H; [exact H|]. cbn [fold_left]. apply IH. destruct H as (H1 & H2 & H3 & H4). unfold same, tab_step. cbn. now rewrite H1, H2, H3, H4. }
    apply G. repeat split.
  - exists st. split; [exact S|]. rewrite F. reflexivity.
Qed.

(** ** The function table *)
Definition table_inv (ds : list (Z * text)) (st : rstate) : Prop :=
  dkeys (r_functions st) = firsts (map fst ds) /\ r_current st = None /\ r_instructions st = [] /\
  (forall a k, dget (r_functions st) a = Some k -> exists n, nth_error (r_objects st) k = Some (n, []) /\ last_declared ds a n) /\
  (forall a b k, dget (r_functions st) a = Some k -> dget (r_functions st) b = Some k -> a = b).
Lemma firsts_in l x : In x (firsts l) <-> In x l.
Proof. induction l as [|y l IH]; [reflexivity|]. cbn [firsts In]. rewrite filter_In, IH. destruct (Z.eq_dec y x) as [->|n]; [tauto|]. replace (negb (x =? y)) with true by lia. tauto. Qed.
Lemma firsts_nodup l : NoDup (firsts l).
Proof. induction l as [|x l IH]; [constructor|]. cbn [firsts]. apply NoDup_cons_iff. split; [|now apply NoDup_filter]. rewrite filter_In. intros [_ X]. rewrite Z.eqb_refl in X. discriminate. Qed.
Lemma dkeys_dset_firsts {A} (d : dict A) k v l : dkeys d = firsts l -> dkeys (dset d k v) = firsts (l ++ [k]).
Proof.
  intros E. rewrite firsts_snoc. unfold add_once. rewrite <- E. clear E. rewrite dkeys_dset.
  replace (existsb (Z.eqb k) (dkeys d)) with (dmem d k); [reflexivity|]. apply eq_true_iff_eq. rewrite existsb_exists. unfold dmem.
  assert (X : In k (dkeys d) <-> match dget d k with Some _ => true | None => false end = true).
  { rewrite dget_some_in. destruct (dget d k); split; intros H; eauto; try discriminate. destruct H; discriminate. }
  rewrite <- X. split; [intros I; exists k; split; [auto|apply Z.eqb_refl]|]. intros (y & J & Y). assert (k = y) as -> by lia. auto.
Qed.
Lemma table_inv_holds ds : table_inv ds (fold_left tab_step ds (RState None [] [] None [])).
Proof.
  induction ds as [|[a n] ds IH] using rev_ind.
  - repeat split; cbn; intros; discriminate.
  - rewrite fold_left_app. cbn [fold_left]. destruct IH as (K & C & I & N & U). set (st := fold_left tab_step ds _) in *. unfold table_inv, tab_step. cbn [r_functions r_current r_instructions r_objects fst snd].
    repeat split; auto.
    + rewrite map_app. now apply dkeys_dset_firsts.
    + intros b k. rewrite dget_dset. destruct (b =? a) eqn:E.
      * intros X. injection X as <-. assert (b = a) as -> by lia. exists n. split; [rewrite nth_error_app2 by lia; now rewrite Nat.sub_diag|]. exists ds, []. split; [reflexivity|intros []].
      * intros X. destruct (N _ _ X) as (m & X1 & d1 & d2 & X2 & X3). exists m. split; [rewrite nth_error_app1; auto; apply nth_error_Some; congruence|].
        exists d1, (d2 ++ [(a, n)]). split; [rewrite X2; now rewrite <- app_assoc|]. rewrite map_app, in_app_iff. intros [Y|[Y|[]]]; [auto|]. cbn in Y; lia.
    + intros b c k. rewrite !dget_dset.
      assert (F : forall z, dget (r_functions st) z = Some (length (r_objects st)) -> False).
      { intros z X. destruct (N _ _ X) as (m & X1 & _). assert (nth_error (r_objects st) (length (r_objects st)) <> None) as Y by congruence. apply nth_error_Some in Y. lia. }
      destruct (b =? a) eqn:E1, (c =? a) eqn:E2; intros X Y.
      * lia.
      * injection X as <-. exfalso; eauto.
      * injection Y as <-. exfalso; eauto.
      * eauto.
Qed.

(** ** Instructions and their functions *)
Lemma belongs_prefix decl l x i a : (i < length l)%nat -> belongs decl (l ++ [x]) i a <-> belongs decl l i a.
Proof.
  intros L. unfold belongs. rewrite app_length. cbn [length].
  split; intros (j & H1 & H2 & H3 & H4 & H5); exists j; (split; [exact H1|split; [lia|]]).
  - rewrite nth_error_app1 in H3 by lia. repeat split; auto. intros k b K E. apply (H5 k b K). rewrite nth_error_app1; [auto|lia].
  - split; [rewrite nth_error_app1 by lia; auto|]. split; [auto|]. intros k b K E. rewrite nth_error_app1 in E by lia. eauto.
Qed.
Lemma belongs_new_in decl l x a : In x decl -> belongs decl (l ++ [x]) (length l) a <-> a = x.
Proof.
  intros D. split.
  - intros (j & H1 & H2 & H3 & H4 & H5). destruct (Nat.eq_dec j (length l)) as [->|n].
    + rewrite nth_error_app2, Nat.sub_diag in H3 by lia. cbn in H3. congruence.
    + exfalso. apply (H5 (length l) x); [lia| |auto]. rewrite nth_error_app2, Nat.sub_diag by lia. reflexivity.
  - intros ->. exists (length l). rewrite app_length. cbn. repeat split; try lia; auto. rewrite nth_error_app2, Nat.sub_diag by lia. reflexivity.
Qed.
Lemma belongs_new_out decl l x a : ~ In x decl -> belongs decl (l ++ [x]) (length l) a <-> belongs decl l (length l - 1) a.
Proof.
  intros D. split; intros (j & H1 & H2 & H3 & H4 & H5).
  - assert (j <> length l). { intros ->. rewrite nth_error_app2, Nat.sub_diag in H3 by lia. cbn in H3. congruence. }
    exists j. rewrite nth_error_app1 in H3 by lia. repeat split; try lia; auto. intros k b K E. apply (H5 k b); [lia|]. rewrite nth_error_app1 by lia. auto.
  - exists j. rewrite app_length. cbn. repeat split; try lia; auto; [rewrite nth_error_app1 by lia; auto|].
    intros k b K E. destruct (Nat.eq_dec k (length l)) as [->|n].
    + rewrite nth_error_app2, Nat.sub_diag in E by lia. cbn in E. congruence.
    + rewrite nth_error_app1 in E by lia. apply (H5 k b); [lia|auto].
Qed.
Lemma sublist_snoc {A} (P P' : nat -> Prop) (l : list A) sub x : sublist_at P l sub -> (forall i, (i < length l)%nat -> P' i <-> P i) -> P' (length l) -> sublist_at P' (l ++ [x]) (sub ++ [x]).
Proof.
  intros (idx & H1 & H2 & H3) E N. exists (idx ++ [length l]). split; [|split].
  - intros i. rewrite in_app_iff, H1, app_length. cbn. split.
    + intros [[L Q]|[<-|[]]]; [split; [lia|apply E; auto]|split; [lia|auto]].
    + intros [L Q]. destruct (Nat.eq_dec i (length l)) as [->|n]; [auto|]. left. split; [lia|]. apply E; [lia|auto].
  - intros m n i j Em En L.
    assert (Ln : (n < length (idx ++ [length l]))%nat) by (apply nth_error_Some; congruence). rewrite app_length in Ln. cbn in Ln.
    rewrite nth_error_app1 in Em by lia. assert (Im : (i < length l)%nat) by (apply nth_error_In in Em; apply H1 in Em; tauto).
    destruct (Nat.eq_dec n (length idx)) as [->|k].
    + rewrite nth_error_app2, Nat.sub_diag in En by lia. cbn in En. injection En as <-. auto.
    + rewrite nth_error_app1 in En by lia. eauto.
  - apply Forall2_app.
    + assert (B : Forall (fun i => (i < length l)%nat) idx) by (apply Forall_forall; intros i I; apply H1 in I; tauto).
      clear -H3 B. induction H3; constructor; inversion B; subst; auto. rewrite nth_error_app1; auto.
    + constructor; [|constructor]. rewrite nth_error_app2, Nat.sub_diag by lia. reflexivity.
Qed.
Lemma sublist_skip {A} (P P' : nat -> Prop) (l : list A) sub x : sublist_at P l sub -> (forall i, (i < length l)%nat -> P' i <-> P i) -> ~ P' (length l) -> sublist_at P' (l ++ [x]) sub.
Proof.
  intros (idx & H1 & H2 & H3) E N. exists idx. split; [|split; [auto|]].
  - intros i. rewrite H1, app_length. cbn. split.
    + intros [L Q]; split; [lia|apply E; auto].
    + intros [L Q]. assert (i <> length l) by congruence. split; [lia|]. apply E; [lia|auto].
  - assert (B : Forall (fun i => (i < length l)%nat) idx) by (apply Forall_forall; intros i I; apply H1 in I; tauto).
    clear -H3 B. induction H3; constructor; inversion B; subst; auto. rewrite nth_error_app1; auto.
Qed.
Lemma append_nth_get fs k i j : nth_error (append_nth fs k i) j = match nth_error fs j with Some (n, l) => Some (n, if Nat.eqb j k then l ++ [i] else l) | None => None end.
Proof.
  revert k j. induction fs as [|[n l] fs IH]; intros k j; [destruct k, j; reflexivity|].
  destruct k as [|k], j as [|j]; cbn [append_nth nth_error Nat.eqb]; try reflexivity.
  - destruct (nth_error fs j) as [[? ?]|]; reflexivity.
  - apply IH.
Qed.
Definition code_inv (ds : list (Z * text)) (is_ : list inst) (st : rstate) : Prop :=
  r_instructions st = is_ /\
  (forall a, (exists k, r_current st = Some k /\ dget (r_functions st) a = Some k) <-> belongs (map fst ds) (map snd is_) (length is_ - 1) a) /\
  (forall k, r_current st = Some k -> exists a, dget (r_functions st) a = Some k) /\
  (forall a k, dget (r_functions st) a = Some k -> exists n l, nth_error (r_objects st) k = Some (n, l) /\ last_declared ds a n /\
     sublist_at (fun i => belongs (map fst ds) (map snd is_) i a) is_ l).
Lemma code_inv_holds ds st0 : table_inv ds st0 -> forall is_, let st := fold_left code_step is_ st0 in
  r_functions st = r_functions st0 /\ code_inv ds is_ st.
Proof.
  intros (K & C & I & N & U). assert (D : forall a, In a (map fst ds) <-> exists k, dget (r_functions st0) a = Some k).
  { intros a. rewrite <- firsts_in, <- K. apply dget_some_in. }
  induction is_ as [|[e x] is_ IH] using rev_ind.
  - cbn. split; [reflexivity|]. split; [auto|]. split; [|split].
    + intros a. split; [intros (k & X & _); congruence|]. intros (j & _ & L & _). cbn in L; lia.
    + intros k X; congruence.
    + intros a k X. destruct (N _ _ X) as (n & X1 & X2). exists n, []. split; [auto|]. split; [auto|]. exists []. split; [|split].
      * intros i; cbn; split; [intros []|intros [L _]; lia].
      * intros [|?]; discriminate.
      * constructor.
  - intros st. unfold st. clear st. rewrite fold_left_app. cbn [fold_left]. destruct IH as [F (I1 & I2 & I3 & I4)]. set (st := fold_left code_step is_ st0) in *.
    unfold code_step. cbn [snd]. unfold code_inv. cbn [r_functions r_current r_instructions r_objects]. split; [auto|].
    split; [now rewrite I1|].
    set (cur := match dget (r_functions st) x with Some f => Some f | None => r_current st end).
    rewrite map_app. cbn [map snd]. rewrite app_length. cbn [length]. assert (Lm : length (map snd is_) = length is_) by apply map_length.
    rewrite Nat.add_sub. rewrite <- Lm.
    assert (Cu : forall a, (exists k, cur = Some k /\ dget (r_functions st) a = Some k) <-> belongs (map fst ds) (map snd is_ ++ [x]) (length (map snd is_)) a).
    { intros a. unfold cur. destruct (dget (r_functions st) x) as [f|] eqn:G.
      - rewrite belongs_new_in by (apply D; exists f; congruence). split.
        + intros (k & X & Y). injection X as <-. apply (U a x f); congruence.
        + intros ->. exists f. split; [reflexivity|auto].
      - rewrite belongs_new_out by (rewrite D; intros [k X]; congruence). rewrite Lm. rewrite <- I2. split; intros X; exact X. }
    split; [exact Cu|]. split.
    + intros k. unfold cur. destruct (dget (r_functions st) x) as [f|] eqn:G; intros X; [injection X as <-; eauto|eauto].
    + intros a k G. destruct (I4 a k G) as (n & l & E1 & E2 & E3).
      assert (Pre : forall i, (i < length is_)%nat -> belongs (map fst ds) (map snd is_ ++ [x]) i a <-> belongs (map fst ds) (map snd is_) i a).
      { intros i L. apply belongs_prefix. now rewrite Lm. }
      specialize (Cu a). rewrite Lm in Cu.
      destruct cur as [c|] eqn:Ec.
      * destruct (Nat.eq_dec k c) as [->|nk].
        -- exists n, (l ++ [(e, x)]). rewrite append_nth_get, E1, Nat.eqb_refl. split; [reflexivity|]. split; [auto|].
           apply (sublist_snoc (fun i => belongs (map fst ds) (map snd is_) i a)); auto. apply Cu. exists c; auto.
        -- exists n, l. rewrite append_nth_get, E1. rewrite (proj2 (Nat.eqb_neq _ _)) by auto. split; [reflexivity|]. split; [auto|].
           apply (sublist_skip (fun i => belongs (map fst ds) (map snd is_) i a)); auto. rewrite <- Cu. intros (k' & X & Y). injection X as <-. congruence.
      * exists n, l. split; [auto|]. split; [auto|].
        apply (sublist_skip (fun i => belongs (map fst ds) (map snd is_) i a)); auto. rewrite <- Cu. intros (k' & X & Y). discriminate.
Qed.
Lemma elfio_listing tail table blocks : ~ In 10 tail -> Forall table_ok table -> Forall block_ok blocks ->
  let ds := declarations table in
  let is_ := flat_map (fun b => code_insts (b_lines b)) blocks in
  exists fs, elfio_read (file_of (listing_lines tail table blocks)) = Ok (fs, is_) /\
    Forall2 (fun a f => last_declared ds a (fst f) /\ sublist_at (fun i => belongs (map fst ds) (map snd is_) i a) is_ (snd f)) (firsts (map fst ds)) fs.
Proof.
  intros N T B ds is_. destruct (read_listing tail table blocks N T B) as (st & S & ->). fold ds is_ in S.
  pose proof (table_inv_holds ds) as TI. pose proof (code_inv_holds ds _ TI is_) as [F (I1 & I2 & I3 & I4)]. destruct TI as (K & _).
  set (t := fold_left code_step is_ _) in *. destruct S as (S1 & S2 & S3 & S4). rewrite S4, I1, S1, S2.
  assert (Nd : NoDup (dkeys (r_functions t))).
  { rewrite F, K. apply firsts_nodup. }
  assert (G : exists fs, mapM (fun f => nth_r (r_objects t) f) (dvalues (r_functions t)) = Ok fs /\
    Forall2 (fun a f => last_declared ds a (fst f) /\ sublist_at (fun i => belongs (map fst ds) (map snd is_) i a) is_ (snd f)) (dkeys (r_functions t)) fs).
  { assert (J : forall a k, In (a, k) (r_functions t) -> exists n l, nth_error (r_objects t) k = Some (n, l) /\ last_declared ds a n /\ sublist_at (fun i => belongs (map fst ds) (map snd is_) i a) is_ l).
    { intros a k X. apply I4. now apply dget_nodup_in. }
    clear -J. induction (r_functions t) as [|[a k] d IH]; [exists []; split; [reflexivity|constructor]|].
    destruct IH as (fs & E & Q); [intros; apply J; right; auto|]. destruct (J a k) as (n & l & X & Y & Z1); [left; reflexivity|].
    exists ((n, l) :: fs). split.
    - change (dvalues ((a, k) :: d)) with (k :: dvalues d). cbn [mapM]. unfold nth_r at 1. rewrite X. cbn [bind]. rewrite E. reflexivity.
    - change (dkeys ((a, k) :: d)) with (a :: dkeys d). constructor; auto. }
  destruct G as (fs & E & Q). rewrite E. cbn [bind]. exists fs. split; [reflexivity|].
  rewrite F, K in Q. exact Q.
Qed.
