(** C131-C132: the storages the SSA form can be built for, and the SSA form of decoded
    instructions. *)
From Verif Require Import ListLemmas SsaProps RangeProofs SsaProofs5 InstModel InstSpec InstProps.
From Verif Require Import LadderProofs2 DarmProps.
From Verif Require Export FlowProps LinkProps SeenProps FlowWordModel.

(** ** C131 *)
(** When the SSA form is built, every storage read or written in a block that can be reached
    is one of the 20 known ones; so one other storage is enough for it not to be built. *)
Theorem C131_known_storages : forall p g root st vg, constructed g -> In root (g_nodes g) -> build_ssa p g root = Ok (st, vg) ->
  forall b i x, reachable (edges g) root b -> In i (p_inst p b) -> In x (p_reads p i ++ p_writes p i) -> 0 <= x < 20.
Proof.
  intros p g root st vg Cg Nr E b i x Rb Ib Ix. destruct (stages_ok _ _ _ _ _ E) as (_ & h & df & gl & phi & st0 & Sg). destruct (order_facts _ _ _ _ _ _ _ _ _ Cg Nr Sg) as (order & Po & _ & Oa & _).
  destruct Sg as (_ & _ & _ & E4 & _). unfold rename_vars in E4. apply node_range in E4 as [_ H]; [|apply full_start]. apply edges_reachable, Oa in Rb. apply (proj1 (preorder_below _) _ _ Po) in Rb. exact (H b i x Rb Ib Ix).
Qed.
Print Assumptions C131_known_storages.
Theorem C131_unknown_storage : forall p g root b i x, constructed g -> In root (g_nodes g) -> reachable (edges g) root b -> In i (p_inst p b) -> In x (p_reads p i ++ p_writes p i) -> ~ 0 <= x < 20 ->
  exists e, build_ssa p g root = Err e.
Proof. intros p g root b i x Cg Nr Rb Ib Ix N. destruct (build_ssa p g root) as [[st vg]|e] eqn:E; [|eauto]. exfalso. exact (N (C131_known_storages _ _ _ _ _ Cg Nr E b i x Rb Ib Ix)). Qed.
Print Assumptions C131_unknown_storage.
Definition range_prog := program [([], [19]); ([50], [])] [(3, [0%nat]); (4, [1%nat])] [2].
Definition range_good := of_edges [1; 2; 3] [(1, 3); (3, 2)].
Definition range_bad := of_edges [1; 2; 3; 4] [(1, 3); (3, 4); (4, 2)].
Example C131_example :
  (exists g, range_good = Ok g /\ constructed g /\ reachable (edges g) 1 3 /\ exists st vg, build_ssa range_prog g 1 = Ok (st, vg)) /\
  (exists g, range_bad = Ok g /\ constructed g /\ reachable (edges g) 1 4 /\ build_ssa range_prog g 1 = Err KeyError).
Proof.
  split.
  - destruct range_good as [g|] eqn:Eg; [|discriminate]. exists g. assert (Cg : constructed g) by (eapply of_edges_constructed; exact Eg). injection Eg as <-. split; [reflexivity|]. split; [exact Cg|]. split; [|do 2 eexists; vm_compute; reflexivity].
    right. exists []. apply walk_edge. reflexivity.
  - destruct range_bad as [g|] eqn:Eg; [|discriminate]. exists g. assert (Cg : constructed g) by (eapply of_edges_constructed; exact Eg). injection Eg as <-. split; [reflexivity|]. split; [exact Cg|]. split; [|vm_compute; reflexivity].
    right. exists [3]. apply (walk_step _ 1 3); [reflexivity|]. apply walk_edge. reflexivity.
Qed.

(** ** C132 *)
(** The claim is false: a register capstone has a number for, but which is not one of the
    sixteen, is given a storage beyond the known ones. *)
Theorem C132_decoded_ssa_refuted : exists w c, w_cap w = Some c /\ core_registers c /\ InstModel.is_branch c = Ok false /\ ssa_words [w] = Err KeyError.
Proof.
  exists (Word 0xEEB00A40 0 (Some (mkCap InstModel.KOther 3 15 [OReg 30] false false false))). eexists. split; [reflexivity|]. split; [|split; vm_compute; reflexivity].
  split; [intros code [X|[]]; injection X as <-; discriminate|intros b i [X|[]]; discriminate].
Qed.
Print Assumptions C132_decoded_ssa_refuted.
(** All registers are among the sixteen. *)
Definition sixteen (c : cap) : Prop := core_registers c /\ forall code, In (OReg code) (c_operands c) -> arm_code code.
Lemma word_range w c : w_cap w = Some c -> sixteen c -> exists l wr rd b r s, registers_used c = Ok l /\ registers_written c = Ok wr /\ registers_read c = Ok rd /\ InstModel.is_branch c = Ok b /\
  word_storages w = Ok (r, s) /\ expected c l wr rd b CRead r /\ expected c l wr rd b CWritten s /\ Forall (fun x => 0 <= x < 20) (r ++ s).
Proof.
  intros Ec [[W K] A]. destruct (InstProps.C30_registers_used_partial c W) as (U & _). destruct (U K) as (l & El & _). destruct (InstProps.C30_written_and_read c l El) as (wr & rd & Ew & Er & Sw & Sr & Sl).
  assert (exists b, InstModel.is_branch c = Ok b) as (b & Eb) by (unfold InstModel.is_branch; rewrite Ew; destruct (c_b c); cbn [rmap]; eauto).
  assert (exists r, fst (storages_read (caps_queries c) no_caches) = Ok r /\ expected c l wr rd b CRead r) as (r & R1 & R2).
  { pose proof (C31_storages c l wr rd b [CRead] El Ew Er Eb) as Q. cbn [do_calls do_call] in Q. destruct (storages_read (caps_queries c) no_caches) as [a k]. inversion Q as [|? ? ? ? (r & X & Y & _) _]; subst. exists r. auto. }
  assert (exists s, fst (storages_written (caps_queries c) no_caches) = Ok s /\ expected c l wr rd b CWritten s) as (s & S1 & S2).
  { pose proof (C31_storages c l wr rd b [CWritten] El Ew Er Eb) as Q. cbn [do_calls do_call] in Q. destruct (storages_written (caps_queries c) no_caches) as [a k]. inversion Q as [|? ? ? ? (s & X & Y & _) _]; subst. exists s. auto. }
  assert (L : forall x, In x l -> 0 <= x < 20). { intros x I. destruct (Sl x I) as [B|(code & _ & N & O)]; [lia|destruct (N (A code O))]. }
  exists l, wr, rd, b, r, s. do 4 (split; [assumption|]). split.
  { unfold word_storages. rewrite Ec, R1. cbn [bind]. rewrite S1. reflexivity. }
  split; [exact R2|]. split; [exact S2|]. rewrite Forall_app, !Forall_forall. split; intros x I.
  - cbn [expected] in R2. unfold extended in R2. subst r. apply in_app_iff in I as [I|I]; [destruct (Sr x I) as [J|[-> _]]; [auto|lia]|]. match type of I with In _ (if ?q then _ else _) => destruct q end; [destruct I as [<-|[]]; lia|destruct I].
  - assert (I' : In x wr \/ x = 16 \/ x = 15).
    { assert (M : forall y, In y (wr ++ (if c_store c then [16] else [])) -> In y wr \/ y = 16 \/ y = 15) by (intros y J; apply in_app_iff in J as [J|J]; [auto|]; destruct (c_store c); [destruct J as [<-|[]]; auto|destruct J]).
      unfold expected, extended in S2. match type of S2 with if ?q then _ else _ => destruct q end; [|rewrite S2 in I; exact (M x I)]. destruct S2 as [S2 S3]. rewrite S3, in_app_iff in I. destruct I as [I|[<-|[]]]; [|auto]. rewrite S2 in I. exact (M x I). }
    destruct I' as [J|[->| ->]]; [auto|lia|lia].
Qed.
Lemma decoded_straight ws : ws <> [] -> (forall w c, In w ws -> w_cap w = Some c -> sixteen c /\ InstModel.is_branch c = Ok false) ->
  exists p s, mapM cfg_word ws = Ok p /\ p <> [] /\ (forall i c, nth_error p i = Some c -> ci_undefined c = false -> ci_branch c = false) /\
    mapM word_storages ws = Ok s /\ (forall i x, In x (fst (nth i s ([], [])) ++ snd (nth i s ([], []))) -> 0 <= x < 20) /\
    forall i w c, nth_error ws i = Some w -> w_cap w = Some c -> exists l wr rd, registers_used c = Ok l /\ registers_written c = Ok wr /\ registers_read c = Ok rd /\ expected c l wr rd false CRead (fst (nth i s ([], []))) /\ expected c l wr rd false CWritten (snd (nth i s ([], []))).
Proof.
  intros N H. assert (M1 : exists p, mapM cfg_word ws = Ok p /\ (p <> [] \/ ws = []) /\ forall i c, nth_error p i = Some c -> ci_undefined c = false -> ci_branch c = false).
  { clear N. induction ws as [|w ws IH]; [exists []; split; [reflexivity|]; split; [auto|]; intros [|i] c X; discriminate|]. destruct IH as (p & Ep & _ & Hp); [intros v c I; apply H; right; exact I|]. cbn [mapM]. rewrite Ep.
    assert (exists c, cfg_word w = Ok c /\ (ci_undefined c = false -> ci_branch c = false)) as (c & -> & Hc).
    { unfold cfg_word. destruct (w_cap w) as [c|] eqn:Ec; [|eexists; split; [reflexivity|discriminate]]. destruct (H w c (or_introl eq_refl) Ec) as [_ Eb]. unfold InstModel.jumping_address. rewrite Eb. cbn [bind]. eexists. split; [reflexivity|]. reflexivity. }
    cbn [bind]. eexists. split; [reflexivity|]. split; [left; discriminate|]. intros [|i] d X; [injection X as <-; exact Hc|exact (Hp i d X)]. }
  destruct M1 as (p & Ep & [Np|Z] & Hp); [|contradiction].
  assert (M2 : exists s, mapM word_storages ws = Ok s /\ Forall (fun q => Forall (fun x => 0 <= x < 20) (fst q ++ snd q)) s).
  { clear N Ep Np Hp. induction ws as [|w ws IH]; [exists []; split; [reflexivity|constructor]|]. destruct IH as (s & Es & Hs); [intros v c I; apply H; right; exact I|]. cbn [mapM]. rewrite Es. destruct (w_cap w) as [c|] eqn:Ec.
    - destruct (word_range w c Ec (proj1 (H w c (or_introl eq_refl) Ec))) as (_ & _ & _ & _ & r & t & _ & _ & _ & _ & Ew & _ & _ & F). rewrite Ew. cbn [bind]. eexists. split; [reflexivity|]. constructor; [exact F|exact Hs].
    - unfold word_storages at 1. rewrite Ec. cbn [bind]. eexists. split; [reflexivity|]. constructor; [constructor|exact Hs]. }
  destruct M2 as (s & Es & Hs). exists p, s. split; [exact Ep|]. split; [exact Np|]. split; [exact Hp|]. split; [exact Es|]. split.
  { intros i x I. destruct (nth_in_or_default i s ([], [])) as [J|J]; [|rewrite J in I; destruct I]. rewrite Forall_forall in Hs. specialize (Hs _ J). rewrite Forall_forall in Hs. auto. }
  intros i w c Ei Ec. pose proof (H w c (nth_error_In _ _ Ei) Ec) as [X Eb]. destruct (word_range w c Ec X) as (l & wr & rd & b & r & t & A1 & A2 & A3 & A4 & A5 & A6 & A7 & _). assert (b = false) as -> by congruence. exists l, wr, rd. do 3 (split; [assumption|]).
  pose proof (mapM_nth _ _ _ Es i) as Q. rewrite Ei in Q. destruct Q as (q & Q1 & Q2). assert (q = (r, t)) as -> by congruence. rewrite (nth_error_nth _ _ _ Q2). auto.
Qed.
(** What holds: with the sixteen registers only, the SSA form of decoded instructions without
    branches is built and right; what an instruction reads and writes is as in C31. *)
Theorem C132_decoded_ssa_partial : forall ws, ws <> [] -> (forall w c, In w ws -> w_cap w = Some c -> sixteen c /\ InstModel.is_branch c = Ok false) ->
  exists program reads writes st g s vg, mapM cfg_word ws = Ok program /\ plain_graph program = Ok (st, g) /\ ssa_words ws = Ok (s, vg) /\
    reads_reach (ssa_program st reads writes) g 1 s /\ phis_reach (ssa_program st reads writes) g 1 s /\
    forall i w c, nth_error ws i = Some w -> w_cap w = Some c -> exists l wr rd, registers_used c = Ok l /\ registers_written c = Ok wr /\ registers_read c = Ok rd /\ expected c l wr rd false CRead (reads i) /\ expected c l wr rd false CWritten (writes i).
Proof.
  intros ws N H. destruct (decoded_straight ws N H) as (p & s & Ep & Np & Hp & Es & Rg & Hx). destruct (C128_straight_ssa p (fun i => fst (nth i s ([], []))) (fun i => snd (nth i s ([], []))) Np Hp Rg) as (st & g & sf & vg & Eg & E & H1 & H2).
  exists p, (fun i => fst (nth i s ([], []))), (fun i => snd (nth i s ([], []))), st, g, sf, vg. split; [exact Ep|]. split; [exact Eg|]. split; [unfold ssa_words; rewrite Ep; cbn [bind]; rewrite Es; exact E|]. auto.
Qed.
Print Assumptions C132_decoded_ssa_partial.
Lemma word_uses w c : w_cap w = Some c -> core_registers c -> InstModel.is_branch c = Ok false -> exists l r s, registers_used c = Ok l /\ word_storages w = Ok (r, s) /\ forall x, In x l -> In x (r ++ s).
Proof.
  intros Ec [W K] Eb. destruct (InstProps.C30_registers_used_partial c W) as (U & _). destruct (U K) as (l & El & _). exists l.
  assert (exists wr rd, registers_written c = Ok wr /\ registers_read c = Ok rd /\ forall x, In x l -> In x wr \/ In x rd) as (wr & rd & Ew & Er & H).
  { unfold registers_written, registers_read, is_pop, is_push_pop. rewrite El. destruct (c_kind c) eqn:Ek; cbn [rmap bind].
    - do 2 eexists. split; [reflexivity|]. split; [reflexivity|]. intros x I. right. assert (Hl : exists t, l = 13 :: t). { unfold registers_used in El. unfold is_push_pop in El. rewrite Ek in El. clear -El. assert (G : forall ops a b, foldM use_operand ops (13 :: a) = Ok b -> exists t, b = 13 :: t). { induction ops as [|o ops IH]; intros a b E; cbn [foldM] in E; [injection E as <-; eauto|]. assert (P : forall a r, exists t, append_new (13 :: a) r = 13 :: t) by (intros a' r; unfold append_new; destruct (FlipModel.zmem r (13 :: a')); [eauto|exists (a' ++ [r]); reflexivity]).
        destruct o as [code|b0 i0|v|]; cbn [use_operand bind] in E.
        - destruct (P a (match capstone_reg code with Some r => r | None => STORAGE_COUNT + code end)) as (t & Et). rewrite Et in E. eapply IH; eauto.
        - destruct (capstone_reg_r b0) as [b1|]; [cbn [bind] in E|discriminate]. destruct (capstone_reg_r i0) as [i1|]; [cbn [bind] in E|discriminate]. destruct (P a b1) as (t1 & E1). rewrite E1 in E. destruct (P a i1) as (t2 & E2). destruct (P t1 i1) as (t3 & E3). destruct (b1 =? 0), (i1 =? 0); rewrite ?E2, ?E3 in E; eapply IH; eauto.
        - eapply IH; eauto.
        - eapply IH; eauto. }
      eapply G; eauto. }
      destruct Hl as (t & ->). cbn [skipn]. unfold append_new, SP. destruct I as [<-|I]; destruct (FlipModel.zmem 13 t) eqn:Z; [now apply DarmProps.zmem_in|apply in_app_iff; right; left; reflexivity|exact I|apply in_app_iff; left; exact I].
    - do 2 eexists. split; [reflexivity|]. split; [reflexivity|]. auto.
    - do 2 eexists. split; [reflexivity|]. split; [reflexivity|]. intros x I. rewrite <- (firstn_skipn 1 l) in I. apply in_app_iff in I. exact I. }
  assert (exists r, fst (storages_read (caps_queries c) no_caches) = Ok r /\ forall x, In x rd -> In x r) as (r & R1 & R2).
  { unfold storages_read. cbn [k_read no_caches caps_queries q_read q_reads]. rewrite Er. cbn [fst]. eexists. split; [reflexivity|]. intros x I. destruct (reads_memory c); [apply in_app_iff; auto|exact I]. }
  assert (exists s, fst (storages_written (caps_queries c) no_caches) = Ok s /\ forall x, In x wr -> In x s) as (s & S1 & S2).
  { unfold storages_written. cbn [k_written no_caches caps_queries q_written q_writes q_branch]. rewrite Ew, Eb. assert (Q : forall x, In x wr -> In x (if writes_memory c then wr ++ [STORE] else wr)) by (intros x I; destruct (writes_memory c); [apply in_app_iff; auto|exact I]). match goal with |- context [if FlipModel.zmem ?a ?b then _ else _] => destruct (FlipModel.zmem a b) end; cbn [fst]; eexists; (split; [reflexivity|exact Q]). }
  exists r, s. split; [exact El|]. split; [unfold word_storages; rewrite Ec, R1; cbn [bind]; rewrite S1; reflexivity|]. intros x I. apply in_app_iff. destruct (H x I); auto.
Qed.
(** The condition is exact: one register outside the sixteen is enough for it to fail. *)
Theorem C132_exactly : forall ws, ws <> [] -> (forall w c, In w ws -> w_cap w = Some c -> core_registers c /\ InstModel.is_branch c = Ok false /\ forall code, In (OReg code) (c_operands c) -> 0 <= code) ->
  (exists s vg, ssa_words ws = Ok (s, vg)) <-> (forall w c code, In w ws -> w_cap w = Some c -> In (OReg code) (c_operands c) -> arm_code code).
Proof.
  intros ws N H. split.
  2: { intros A. destruct (C132_decoded_ssa_partial ws N) as (p & rd & wt & st & g & s & vg & _ & _ & E & _); [|eauto]. intros w c I Ec. destruct (H w c I Ec) as (C & Eb & _). split; [split; [exact C|]; intros code O; exact (A w c code I Ec O)|exact Eb]. }
  intros (s & vg & E) w c code I Ec O. destruct (H w c I Ec) as (Cr & Eb & Nn). destruct (word_uses w c Ec Cr Eb) as (l & r & t & El & Ew & Hl).
  destruct (InstProps.C30_registers_used_partial c (proj1 Cr)) as (U & _). destruct (U (proj2 Cr)) as (l' & El' & _ & Hu). rewrite El in El'. injection El' as <-.
  unfold ssa_words in E. destruct (mapM cfg_word ws) as [p|] eqn:Ep; [cbn [bind] in E|discriminate]. destruct (mapM word_storages ws) as [sl|] eqn:Es; [cbn [bind] in E|discriminate].
  destruct (C134_capstone ws p Ep) as [Lp Hp]. assert (Np : p <> []) by (intros ->; destruct ws; [contradiction|discriminate]).
  assert (Hn : forall i d, nth_error p i = Some d -> ci_undefined d = false -> ci_branch d = false).
  { intros i d Ei Ud. destruct (nth_error ws i) as [v|] eqn:Ev; [|apply nth_error_None in Ev; assert (i < length p)%nat by (apply nth_error_Some; congruence); lia]. destruct (Hp i v Ev) as (d' & Ed' & _ & Un & B). assert (d' = d) as -> by congruence.
    destruct (w_cap v) as [q|] eqn:Eq; [|destruct Un as [_ Un]; rewrite Un in Ud by reflexivity; discriminate]. destruct (B q eq_refl) as (b & B1 & B2 & _). destruct (H v q (nth_error_In _ _ Ev) Eq) as (_ & B3 & _). congruence. }
  destruct (C127_straight_graph p Np Hn) as (st & g & B & skip & Eg & _ & _ & Hin & _ & _ & Rn & _ & Wy). unfold ssa_of in E. rewrite Eg in E. cbn [bind] in E.
  destruct (straight_graph p Np Hn) as (st' & g' & _ & Eg' & Cg & _). rewrite Eg in Eg'. injection Eg' as <- <-.
  apply In_nth_error in I as (i & Ei). destruct (Hp i w Ei) as (d & Ed & _ & Un & _).
  assert (Ii : In i (flat_map (instructions st) B)). { rewrite (runs_all _ _ _ _ Rn). unfold positions. apply filter_In. split; [apply in_seq; split; [lia|apply nth_error_Some; congruence]|]. rewrite Ed. destruct (ci_undefined d); [|reflexivity]. destruct Un as [Un _]. rewrite Un in Ec by reflexivity. discriminate. }
  apply in_flat_map in Ii as (b & Ib & Ii). pose proof (in_split _ _ Ib) as (B1 & B2 & EB).
  assert (Rb : reachable (edges g) 1 b). { apply reachable_way. exists (1 :: B1 ++ [b]). apply (Wy B1 b B2 EB). exists B1. split; [clear; induction B1; [constructor|now apply kept_take]|reflexivity]. }
  pose proof (mapM_nth _ _ _ Es i) as Q. rewrite Ei in Q. destruct Q as (q & Q1 & Q2). assert (q = (r, t)) as -> by congruence.
  assert (X : forall x, In x l -> 0 <= x < 20). { intros x Ix. apply (C131_known_storages _ _ _ _ _ Cg (proj2 (Hin 1) (or_intror (or_introl eq_refl))) E b i x Rb Ii). cbn [ssa_program p_reads p_writes]. rewrite (nth_error_nth _ _ _ Q2). exact (Hl x Ix). }
  assert (Dec : arm_code code \/ ~ arm_code code). { unfold arm_code, arm_number. assert ((66 <= code <= 78 \/ code = 10 \/ code = 11 \/ code = 12) \/ ~ (66 <= code <= 78 \/ code = 10 \/ code = 11 \/ code = 12)) as [A|A] by lia; [left|right; intros (z & Z); apply A; lia]. destruct A as [A|[A|[A|A]]]; [exists (code - 66)|exists 14|exists 15|exists 13]; lia. }
  destruct Dec as [D|D]; [exact D|exfalso]. assert (In (20 + code) l) by (apply Hu; right; left; exists code; auto). specialize (X _ H0). specialize (Nn code O). lia.
Qed.
Print Assumptions C132_exactly.
(** MOV r1, r2; LDREQ r1, [r3]; STR r1, [sp] *)
Definition word_mov := mkCap InstModel.KOther 1 15 [OReg 67; OReg 68] false false false.
Definition word_ldr := mkCap InstModel.KOther 2 1 [OReg 67; OMem 69 0] false false false.
Definition word_str := mkCap InstModel.KOther 3 15 [OReg 67; OMem 12 0] true false false.
Definition decoded_example := [Word 0xE1A01002 0 (Some word_mov); Word 0x05931000 4 (Some word_ldr); Word 0xFFFFFFFF 8 None; Word 0xE58D1000 12 (Some word_str)].
Example C132_example : (forall w c, In w decoded_example -> w_cap w = Some c -> sixteen c /\ InstModel.is_branch c = Ok false) /\
  exists s vg, ssa_words decoded_example = Ok (s, vg) /\ s_written s 0%nat = [(1, 1)] /\ s_written s 1%nat = [(1, 2)].
Proof.
  split; [|do 2 eexists; vm_compute; auto].
  assert (A : forall code, In code [67; 68; 69] -> arm_code code) by (intros code I; exists (code - 66); left; cbn [In] in I; lia). assert (S : arm_code 12) by (exists 13; right; right; right; auto).
  intros w c I Ec. cbn [decoded_example In] in I. destruct I as [<-|[<-|[<-|[<-|[]]]]]; cbn [w_cap] in Ec; try discriminate; injection Ec as <-; (split; [|vm_compute; reflexivity]); split; try split.
  all: unfold wf_cap, known_memory; intros.
  all: match goal with H : In _ (c_operands _) |- _ => cbn [c_operands word_mov word_ldr word_str In] in H; destruct H as [Q|[Q|[]]] end.
  all: first [discriminate Q|injection Q; intros; subst].
  all: try discriminate.
  all: first [apply A; cbn [In]; auto|split; [right; first [exact S|apply A; cbn [In]; auto]|left; reflexivity]].
Qed.
