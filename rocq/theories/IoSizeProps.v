(** C178: how large a solution file is. *)
From Verif Require Import ListLemmas IoModel IoSpec IoProofs IoProps.
From Coq Require Import ZifyBool ZifyNat.
Open Scope Z_scope.

(** The original stands at place [d] of the candidates, counted from 1. *)
Definition rank (enc : Z) (v : list inst) (d : Z) : Prop := exists pre x post,
  v = pre ++ x :: post /\ encoding x = enc /\ (forall y, In y pre -> encoding y <> enc) /\ d = Z.of_nat (length pre) + 1.
Definition original_rank (original : dict (list inst)) (kv : Z * list inst) (d : Z) : Prop :=
  exists o others, dget original (fst kv) = Some (o :: others) /\ rank (encoding o) (snd kv) d.
Definition total (l : list Z) : Z := fold_right Z.add 0 l.
Definition candidates (program : dict (list inst)) : Z := total (map (fun kv => Z.of_nat (length (snd kv))) program).

Lemma put_size n v b u : put n v = (b, Ok u) -> length b = n.
Proof. unfold put, pack. destruct (_ && _); [|discriminate]. intros X. injection X as <- _. clear. revert v. induction n; intros v; cbn [le_bytes length]; [reflexivity|]. now rewrite IHn. Qed.
Lemma before_split w w' b u : before w w' = (b, Ok u) -> exists b1 u1 b2, w = (b1, Ok u1) /\ w' = (b2, Ok u) /\ b = b1 ++ b2.
Proof. unfold before. destruct w as [b1 [u1|e]]; cbn [fst snd]; [|discriminate]. destruct w' as [b2 r]. cbn [fst snd]. intros X. injection X as <- ->. eauto 6. Qed.
Lemma puts_size l : forall b u, puts l = (b, Ok u) -> Z.of_nat (length b) = 4 * Z.of_nat (length l).
Proof. induction l as [|v l IH]; intros b u H; cbn [puts] in H; [injection H as <- _; reflexivity|]. apply before_split in H as (b1 & u1 & b2 & H1 & H2 & ->). rewrite app_length, (put_size _ _ _ _ H1). specialize (IH _ _ H2). cbn [length]. lia. Qed.
Lemma find_rank original k v : forall i, find_original original k v = Ok i -> (i =? length v)%nat = false -> exists o others, dget original k = Some (o :: others) /\ rank (encoding o) v (Z.of_nat i + 1) /\ (i < length v)%nat.
Proof. induction v as [|x v IH]; intros i H N; cbn [find_original] in H; [injection H as <-; discriminate|]. unfold dget_r in H. destruct (dget original k) as [[|o others]|] eqn:G; try discriminate; cbn [bind nth_r nth_error] in H. unfold nth_r in H. cbn [nth_error bind] in H.
  destruct (Z.eqb_spec (encoding x) (encoding o)) as [E|E].
  - injection H as <-. exists o, others. split; [reflexivity|]. split; [|cbn; lia]. exists [], x, v. split; [reflexivity|]. split; [exact E|]. split; [intros y []|reflexivity].
  - destruct (find_original original k v) as [j|] eqn:F; [|discriminate]. cbn [rmap bind] in H. injection H as <-. destruct (IH j eq_refl) as (o' & others' & G' & (pre & y & post & E1 & E2 & E3 & E4) & L); [cbn [length] in N; lia|]. injection G' as <- <-.
    exists o, others. split; [reflexivity|]. split; [|cbn [length]; lia]. exists (x :: pre), y, post. split; [now rewrite E1|]. split; [exact E2|]. split; [intros z [<-|I]; [exact E|apply E3, I]|]. cbn [length]. lia. Qed.
Lemma entry_size original k v b u : write_entry original k v = (b, Ok u) -> exists d, original_rank original (k, v) d /\ Z.of_nat (length b) = 8 + 4 * d.
Proof. unfold write_entry. intros H. apply before_split in H as (b1 & u1 & b2 & H1 & H2 & ->). destruct (find_original original k v) as [i|] eqn:F; [|discriminate]. destruct (i =? length v)%nat eqn:N; [discriminate|].
  apply before_split in H2 as (b3 & u3 & b4 & H3 & H4 & ->). destruct (find_rank _ _ _ _ F N) as (o & others & G & R & L). exists (Z.of_nat i + 1). split; [exists o, others; split; assumption|].
  rewrite !app_length, (put_size _ _ _ _ H1), (put_size _ _ _ _ H3). apply puts_size in H4. rewrite map_length, firstn_length in H4. lia. Qed.
Lemma entries_size original program : forall b u, write_entries original program = (b, Ok u) -> exists ds, Forall2 (original_rank original) program ds /\ Z.of_nat (length b) = total (map (fun d => 8 + 4 * d) ds).
Proof. induction program as [|[k v] p IH]; intros b u H; cbn [write_entries] in H; [injection H as <- _; exists []; split; [constructor|reflexivity]|]. apply before_split in H as (b1 & u1 & b2 & H1 & H2 & ->).
  destruct (entry_size _ _ _ _ _ H1) as (d & R & S). destruct (IH _ _ H2) as (ds & Rs & Ss). exists (d :: ds). split; [constructor; assumption|]. rewrite app_length, Nat2Z.inj_add, S, Ss. reflexivity. Qed.
Lemma rank_le enc v d : rank enc v d -> 1 <= d <= Z.of_nat (length v).
Proof. intros (pre & x & post & -> & _ & _ & ->). rewrite app_length. cbn [length]. lia. Qed.
Lemma total_ranks ds : total (map (fun d => 8 + 4 * d) ds) = 8 * Z.of_nat (length ds) + 4 * total ds.
Proof. induction ds as [|d ds IH]; [reflexivity|]. cbn [map total fold_right]. fold (total ds) (total (map (fun d => 8 + 4 * d) ds)). rewrite IH. cbn [length]. lia. Qed.
Lemma ranks_bounds original program ds : Forall2 (original_rank original) program ds -> Z.of_nat (length program) <= total ds <= candidates program.
Proof. unfold candidates. induction 1 as [|kv d p ds (o & others & _ & R) H IH]; [cbn; lia|]. apply rank_le in R. cbn [map total fold_right length]. fold (total ds) (total (map (fun kv => Z.of_nat (length (snd kv))) p)). lia. Qed.

(** C178.  A file that was written has 12 bytes, 8 for every address and 4 for every
    candidate up to the original: between 12 and 8 per address and candidate of the program. *)
Theorem C178_size : forall original program file u, write_binary original program = (file, Ok u) ->
  exists ranks, Forall2 (original_rank original) program ranks /\
    Z.of_nat (length file) = 12 + 8 * Z.of_nat (length program) + 4 * total ranks /\
    12 + 12 * Z.of_nat (length program) <= Z.of_nat (length file) <= 12 + 8 * Z.of_nat (length program) + 4 * candidates program.
Proof. intros original program file u H. unfold write_binary in H. apply before_split in H as (b1 & u1 & b2 & H1 & H2 & ->). apply before_split in H2 as (b3 & u3 & b4 & H3 & H4 & ->). destruct (entries_size _ _ _ _ H4) as (ds & R & S). exists ds. split; [exact R|].
  pose proof (ranks_bounds _ _ _ R) as B. rewrite total_ranks in S. assert (L : length program = length ds) by (clear -R; induction R; cbn; congruence). rewrite <- L in S.
  rewrite !app_length, (put_size _ _ _ _ H1), (put_size _ _ _ _ H3). split; lia. Qed.
Print Assumptions C178_size.
(** A better rank at one address and no worse one elsewhere make a smaller file; the
    candidates behind the original do not count. *)
Theorem C178_ranks_decide : forall original program program' file file' u u' ranks ranks',
  write_binary original program = (file, Ok u) -> write_binary original program' = (file', Ok u') ->
  Forall2 (original_rank original) program ranks -> Forall2 (original_rank original) program' ranks' -> Forall2 Z.le ranks ranks' ->
  Z.of_nat (length file) <= Z.of_nat (length file') /\ (Z.of_nat (length file) = Z.of_nat (length file') <-> ranks = ranks').
Proof. intros original program program' file file' u u' rs rs' H H' R R' L. destruct (C178_size _ _ _ _ H) as (ds & D & S & _). destruct (C178_size _ _ _ _ H') as (ds' & D' & S' & _).
  assert (One : forall kv d d', original_rank original kv d -> original_rank original kv d' -> d = d').
  { clear. intros [k v] d d' (o & os & G & pre & x & post & E & X & P & ->) (o' & os' & G' & pre' & x' & post' & E' & X' & P' & ->). cbn [fst snd] in *. assert (o' = o) as -> by congruence. clear G G'. f_equal. subst v. revert pre' E' P'. induction pre as [|y pre IH]; intros [|y' pre'] E' P'; cbn [app] in E'; [reflexivity| | |].
    - injection E' as -> _. destruct (P' y' (or_introl eq_refl)). exact X.
    - injection E' as -> _. destruct (P x' (or_introl eq_refl)). exact X'.
    - injection E' as _ E'. cbn [length]. specialize (IH (fun z I => P z (or_intror I)) pre' E' (fun z I => P' z (or_intror I))). lia. }
  assert (U : forall p a b, Forall2 (original_rank original) p a -> Forall2 (original_rank original) p b -> a = b).
  { clear -One. intros p a b A. revert b. induction A as [|kv d p ds Q A IH]; intros b B; inversion_clear B; [reflexivity|]. f_equal; [eapply One; eassumption|apply IH; assumption]. }
  rewrite (U _ _ _ D R) in S. rewrite (U _ _ _ D' R') in S'. assert (Lp : length program = length program') by (transitivity (length rs); [clear -R; induction R; cbn; congruence|]; transitivity (length rs'); [clear -L; induction L; cbn; congruence|clear -R'; induction R'; cbn; congruence]).
  rewrite S, S', Lp. assert (T : total rs <= total rs' /\ (total rs = total rs' <-> rs = rs')).
  { clear -L. induction L as [|a b l l' P L [IH1 IH2]]; [split; [lia|tauto]|]. cbn [total fold_right]. fold (total l) (total l'). split; [lia|]. split; [intros E; f_equal; [lia|apply IH2; lia]|intros E; injection E as -> ->; reflexivity]. }
  split; [lia|]. rewrite <- (proj2 T). lia. Qed.
Print Assumptions C178_ranks_decide.
Example C178_example : let original := [(0, [(5, 0)]); (4, [(7, 4)])] in
  let program := [(0, [(6, 0); (5, 0); (8, 0)]); (4, [(7, 4); (9, 4)])] in let better := [(0, [(5, 0); (6, 0); (8, 0)]); (4, [(7, 4); (9, 4)])] in
  (exists file, write_binary original program = (file, Ok tt) /\ length file = 40%nat) /\ (exists file, write_binary original better = (file, Ok tt) /\ length file = 36%nat) /\
  Forall2 (original_rank original) program [2; 1] /\ Forall2 (original_rank original) better [1; 1] /\ candidates program = 5.
Proof. cbv zeta. do 2 (split; [eexists; split; [vm_compute; reflexivity|reflexivity]|]).
  split; [|split; [|reflexivity]]; repeat constructor; cbn [fst snd].
  - exists (5, 0), []. split; [reflexivity|]. exists [(6, 0)], (5, 0), [(8, 0)]. split; [reflexivity|]. split; [reflexivity|]. split; [intros y [<-|[]]; discriminate|reflexivity].
  - exists (7, 4), []. split; [reflexivity|]. exists [], (7, 4), [(9, 4)]. split; [reflexivity|]. split; [reflexivity|]. split; [intros y []|reflexivity].
  - exists (5, 0), []. split; [reflexivity|]. exists [], (5, 0), [(6, 0); (8, 0)]. split; [reflexivity|]. split; [reflexivity|]. split; [intros y []|reflexivity].
  - exists (7, 4), []. split; [reflexivity|]. exists [], (7, 4), [(9, 4)]. split; [reflexivity|]. split; [reflexivity|]. split; [intros y []|reflexivity]. Qed.
