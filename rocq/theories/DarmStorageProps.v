(** C144: the storages of a darm instruction, whatever was asked of it before. *)
From Verif Require Import ListLemmas InstModel InstProofs DarmModel DarmProps.
From Coq Require Import ZifyBool Lia.

(** ** Specification *)
(** The text says that memory is written, or read. *)
Definition text_writes (d : darm) : Prop := exists p0 p1 ps, k_pieces d = p0 :: p1 :: ps /\ (occurs "[" p0 \/ occurs "]" p0 \/ occurs "push" (k_name d)).
Definition text_reads (d : darm) : Prop := exists p0 p1 ps, k_pieces d = p0 :: p1 :: ps /\ (occurs "[" p1 \/ occurs "]" p1 \/ occurs "pop" (k_name d)).
(** What a storages query should hold: 16 is memory, 15 the program counter, 18 stands for
    no storage at all. *)
Definition holds (d : darm) (q : call) (r : Z) : Prop :=
  match q with
  | CWritten => writes_register d r \/ (r = 16 /\ text_writes d) \/ (r = 15 /\ (k_type d = 10 \/ k_type d = 11))
  | CRead => reads_register d r \/ (r = 16 /\ text_reads d)
  | CUsed => writes_register d r \/ reads_register d r \/ (r = 16 /\ (text_writes d \/ text_reads d)) \/
             (r = 18 /\ (forall x, ~ writes_register d x /\ ~ reads_register d x) /\ ~ text_writes d /\ ~ text_reads d)
  end.
(** The remembered answers after some queries. *)
Inductive asked (o : option darm) : caches -> Prop :=
| asked_new : asked o no_caches
| asked_more k q : asked o k -> asked o (snd (do_call (darm_queries o) k q)).

Lemma bracket_occurs p : bracket p = true <-> occurs "[" p \/ occurs "]" p.
Proof. unfold bracket. rewrite orb_true_iff, !contains_occurs. reflexivity. Qed.
Lemma writes_text d : darm_writes d = true <-> text_writes d.
Proof.
  unfold darm_writes, text_writes, inst_is. destruct (k_pieces d) as [|p0 [|p1 ps]]; [split; [discriminate|intros (?&?&?&E&_); discriminate]..|]. rewrite orb_true_iff, bracket_occurs, contains_occurs.
  split; [intros H; exists p0, p1, ps; tauto|intros (?&?&?&E&H); injection E as <- <- <-; tauto].
Qed.
Lemma reads_text d : darm_reads d = true <-> text_reads d.
Proof.
  unfold darm_reads, text_reads, inst_is. destruct (k_pieces d) as [|p0 [|p1 ps]]; [split; [discriminate|intros (?&?&?&E&_); discriminate]..|]. rewrite orb_true_iff, bracket_occurs, contains_occurs.
  split; [intros H; exists p0, p1, ps; tauto|intros (?&?&?&E&H); injection E as <- <- <-; tauto].
Qed.
Lemma darm_total o : branch_total (darm_queries o).
Proof. intros l H. destruct o; [eexists; reflexivity|discriminate]. Qed.
Lemma asked_coherent o k : asked o k -> coherent (darm_queries o) k.
Proof. induction 1; [apply no_caches_coherent|]. apply do_call_coherent; [apply darm_total|assumption]. Qed.
Lemma asked_fresh o k q : asked o k -> fst (do_call (darm_queries o) k q) = fresh (darm_queries o) q.
Proof. intros H. apply do_call_coherent; [apply darm_total|apply asked_coherent, H]. Qed.
Lemma in_more (r : Z) (b : bool) l x : In r (if b then l ++ [x] else l) <-> In r l \/ (b = true /\ r = x).
Proof. destruct b; [rewrite in_app_iff; cbn [In]|]; intuition congruence. Qed.
Lemma fresh_holds d q : exists l, fresh (darm_queries (Some d)) q = Ok l /\ forall r, In r l <-> holds d q r.
Proof.
  assert (M : forall r, (In r (darm_written d) <-> writes_register d r) /\ (In r (darm_read d) <-> reads_register d r) /\ (In r (darm_used d) <-> writes_register d r \/ reads_register d r)) by (intros r; apply C103_membership_partial).
  pose proof (writes_text d) as TW. pose proof (reads_text d) as TR. destruct q; unfold fresh; cbn [do_call].
  - unfold storages_used. cbn [k_used no_caches darm_queries q_used q_writes q_reads k_written k_read fst]. eexists. split; [reflexivity|]. intros r. cbn [holds]. rewrite <- TW, <- TR.
    assert (I : In r (if darm_writes d || darm_reads d then darm_used d ++ [16] else darm_used d) <-> (writes_register d r \/ reads_register d r) \/ (r = 16 /\ (darm_writes d = true \/ darm_reads d = true))).
    { rewrite in_more, (proj2 (proj2 (M r))), orb_true_iff. tauto. }
    destruct (if darm_writes d || darm_reads d then darm_used d ++ [16] else darm_used d) as [|a l] eqn:El.
    + destruct (darm_writes d || darm_reads d) eqn:Em; [destruct (darm_used d); discriminate|]. apply orb_false_iff in Em as [E1 E2]. rewrite E1, E2.
      assert (N : forall x, ~ writes_register d x /\ ~ reads_register d x) by (intros x; assert (X : ~ In x (darm_used d)) by (rewrite El; intros []); rewrite (proj2 (proj2 (M x))) in X; tauto).
      cbn [In]. split; [intros [<-|[]]|].
      * right. right. right. split; [reflexivity|]. split; [exact N|]. split; discriminate.
      * intros [H|[H|[(_ & [H|H])|[-> _]]]]; [destruct (proj1 (N r) H)|destruct (proj2 (N r) H)|discriminate|discriminate|auto].
    + rewrite I. split; [tauto|]. intros [H|[H|[H|(_ & N & W & R)]]]; [tauto..|]. exfalso. rewrite not_true_iff_false in W, R. rewrite W, R in El. cbn [orb] in El.
      assert (X : In a (darm_used d)) by (rewrite El; left; reflexivity). apply (proj2 (proj2 (M a))) in X. destruct (N a). tauto.
  - unfold storages_written. cbn [k_used no_caches darm_queries q_written q_writes q_branch k_written k_read].
    assert (I : forall r, In r (if darm_writes d then darm_written d ++ [STORE] else darm_written d) <-> writes_register d r \/ (r = 16 /\ text_writes d)) by (intros r; rewrite in_more, (proj1 (M r)), TW; unfold STORE; tauto).
    set (l1 := if darm_writes d then darm_written d ++ [STORE] else darm_written d) in *. destruct (zmem 15 l1) eqn:Z15; cbn [fst]; eexists; (split; [reflexivity|]); intros r; cbn [holds].
    + apply zmem_in in Z15. rewrite I. split; [tauto|]. intros [H|[H|[-> _]]]; [tauto..|]. now apply I.
    + rewrite in_more, I. unfold darm_branch, PC. assert (N : ~ In 15 l1) by (intros X; apply zmem_in in X; congruence). assert (N' : zmem 15 (darm_written d) = false).
      { apply not_true_iff_false. intros X. apply zmem_in in X. apply N. apply I. left. now apply M. }
      rewrite N', orb_false_r, orb_true_iff, !Z.eqb_eq. tauto.
  - unfold storages_read. cbn [k_used no_caches darm_queries q_read q_reads k_written k_read fst]. eexists. split; [reflexivity|]. intros r. cbn [holds]. rewrite in_more, (proj1 (proj2 (M r))), TR. unfold STORE. tauto.
Qed.

(** ** C144 *)
(** Every storages query answers, and holds exactly what it should, whatever was asked
    before. *)
Theorem C144_storages : forall d k q, asked (Some d) k -> exists l, fst (do_call (darm_queries (Some d)) k q) = Ok l /\ forall r, In r l <-> holds d q r.
Proof. intros d k q A. rewrite (asked_fresh _ _ _ A). apply fresh_holds. Qed.
Print Assumptions C144_storages.
(** modifies_flags() tells whether the flags register is written. *)
Theorem C144_flags : forall d k, asked (Some d) k -> exists b, darm_modifies_flags (Some d) k = Ok b /\ (b = true <-> writes_register d 17).
Proof.
  intros d k A. destruct (C144_storages d k CWritten A) as (l & E & H). cbn [do_call] in E. unfold darm_modifies_flags. rewrite E. cbn [rmap]. eexists. split; [reflexivity|]. rewrite zmem_in, (H CPSR). cbn [holds]. unfold CPSR.
  split; [intros [X|[[X _]|[X _]]]; [exact X|discriminate|discriminate]|auto].
Qed.
Print Assumptions C144_flags.
(** An undefined instruction answers no query. *)
Theorem C144_undefined : forall k q, asked None k -> fst (do_call (darm_queries None) k q) = Err AttributeError /\ darm_modifies_flags None k = Err AttributeError.
Proof.
  intros k q A. assert (H : forall q, fst (do_call (darm_queries None) k q) = Err AttributeError) by (intros q'; rewrite (asked_fresh _ _ _ A); destruct q'; reflexivity).
  split; [apply H|]. unfold darm_modifies_flags. specialize (H CWritten). cbn [do_call] in H. now rewrite H.
Qed.
Print Assumptions C144_undefined.
(** cmp r4, r6, asked twice; and a branch. *)
Example C144_example :
  let d := mkDarm false "cmp" None None (Some 4) None (Some 6) 0 14 3 ["cmp r4"; " r6"]%string in
  let b := mkDarm false "b" None None None None None 0 14 11 ["b +#8"]%string in
  (exists k, asked (Some d) k /\ k <> no_caches /\ darm_modifies_flags (Some d) k = Ok true) /\ ~ text_writes d /\
  fst (do_call (darm_queries (Some b)) no_caches CWritten) = Ok [15] /\ fst (do_call (darm_queries (Some b)) no_caches CUsed) = Ok [18] /\ darm_modifies_flags (Some b) no_caches = Ok false.
Proof.
  intros d b. split; [|split; [intros H; apply writes_text in H; vm_compute in H; discriminate|repeat split; reflexivity]].
  exists (snd (do_call (darm_queries (Some d)) no_caches CWritten)). split; [apply asked_more, asked_new|]. split; [discriminate|reflexivity].
Qed.
