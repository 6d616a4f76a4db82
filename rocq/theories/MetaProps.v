(** Property theorems C34-C37 (metadata). *)
From Verif Require Import ListLemmas FlipModel FlipProofs InstModel InstProofs MetaModel MetaSpec MetaProofs.
From Coq Require Import ZifyBool ZifyNat Permutation Sorted.

(** add r1, r2, r3; mov r4, r1 (ignored); add r1, r1, r4; str r1, [r2]; add r1, r2, r3 again; ldr r5, [r1]. *)
Definition demo : list dinst :=
  [mkD 50 0 false 14 1 [1; 2; 3] [1] [2; 3] [1] [2; 3] false KOther None;
   mkD 40 4 true 14 2 [4; 1] [4] [1] [4] [1] false KOther None;
   mkD 70 8 false 14 1 [1; 4] [1] [1; 4] [1] [1; 4] false KOther None;
   mkD 60 12 false 0 3 [2; 3] [16] [2; 3] [] [2; 3] false KOther None;
   mkD 65 16 false 14 5 [1; 16] [5] [1; 16] [5] [1] false KOther None;
   mkD 50 20 false 14 1 [1; 2; 3] [1] [2; 3] [1] [2; 3] false KOther None].

(** C34.  After any number of collects on a fresh collector, the counts are those
    of all the lists together. *)
Theorem C34_counts : forall (lists : list (list dinst)) k, let c := fold_left collect lists new_collector in
  dget (condition_count c) k = entry_for (how_many (fun i => d_cond i =? k) (concat lists)) /\
  dget (instruction_count c) k = entry_for (how_many (fun i => d_op i =? k) (concat lists)) /\
  dget (storage_count c) k = entry_for (occurrences k (concat lists)).
Proof. intros lists k.
  assert (G : forall lists c0, let c := fold_left collect lists c0 in
    condition_count c = inc_keys (condition_count c0) (map d_cond (kept (concat lists))) /\
    instruction_count c = inc_keys (instruction_count c0) (map d_op (kept (concat lists))) /\
    storage_count c = inc_keys (storage_count c0) (flat_map d_used (kept (concat lists)))).
  { clear. induction lists as [|l lists IH]; intros c0; cbn [fold_left concat]; [cbn; auto|].
    specialize (IH (collect c0 l)). cbv zeta in IH. destruct IH as (A & B & C). unfold kept in *. rewrite filter_app, !map_app, flat_map_app, !inc_keys_app. fold (kept l) in *. cbv zeta. rewrite A, B, C.
    unfold collect. match goal with |- context [fold_left collect_step l (?x, ?e, ?t)] => destruct (collect_steps l x e t) as (c' & e' & E & S1 & S2 & S3 & _) end.
    rewrite E. cbn [storage_count condition_count instruction_count] in *. rewrite S1, S2, S3. auto. }
  destruct (G lists new_collector) as (A & B & C). cbv zeta in *. rewrite A, B, C. cbn [new_collector condition_count instruction_count storage_count].
  assert (Z0 : forall ks, dget (inc_keys [] ks) k = entry_for (Z.of_nat (count_occ Z.eq_dec ks k))).
  { intros ks. rewrite inc_keys_get. cbv zeta. unfold entry_for, dget0. cbn [dget]. reflexivity. }
  rewrite !Z0. unfold how_many, occurrences. rewrite !count_occ_map. auto. Qed.
Print Assumptions C34_counts.
Example C34_example : let c := collect (collect new_collector demo) [nth 3 demo (mkD 0 0 true 0 0 [] [] [] [] [] false KOther None)] in
  dget (condition_count c) 14 = Some 4 /\ dget (condition_count c) 0 = Some 2 /\ dget (instruction_count c) 2 = None /\ dget (storage_count c) 2 = Some 4.
Proof. vm_compute. auto. Qed.

(** C35.  For every storage 0..19 the pairs of a write and the first following read
    can be listed; if there is none, the entries are what they were (absent on a
    fresh collector), otherwise they are least, greatest and (sum, number) of the
    distances. *)
Theorem C35_distances : forall c insts s, 0 <= s < 20 -> Forall (fun i => Forall (fun s => 0 <= s) (d_written i)) insts ->
  let c' := collect c insts in
  exists ps, NoDup ps /\ (forall i j, In (i, j) ps <-> write_read (kept insts) s i j) /\
    (ps = [] -> dget (min_dist c') s = dget (min_dist c) s /\ dget (max_dist c') s = dget (max_dist c) s /\ dget (mean_dist c') s = dget (mean_dist c) s) /\
    (ps <> [] -> exists m M sum n, dget (min_dist c') s = Some m /\ dget (max_dist c') s = Some M /\ dget (mean_dist c') s = Some (sum, n) /\
       least m ps /\ greatest M ps /\ sum = sum_distance ps /\ n = Z.of_nat (length ps) /\ 0 < n /\ m * n <= sum <= M * n).
Proof. intros c insts s Hs W. cbv zeta. unfold collect.
  match goal with |- context [fold_left collect_step insts (?x, ?e, ?t)] => destruct (collect_steps insts x e t) as (c' & e' & E & _); set (t0 := t) in * end.
  rewrite E. cbn [min_dist max_dist mean_dist].
  assert (F : Forall nonneg_written (kept insts)) by (apply Forall_forall; intros x Hx; apply filter_In in Hx; rewrite Forall_forall in W; apply W, Hx).
  destruct (tracked_all (kept insts) t0) as [_ T]; [split; reflexivity|exact F|reflexivity| |].
  { intros s' Hs'. unfold t0. cbn [t_dist t_defined]. split.
    - apply nth_repeat.
    - destruct (Nat.lt_ge_cases (Z.to_nat s') (Z.to_nat (STORAGE_COUNT + 1))); apply nth_repeat. }
  specialize (T s Hs). unfold tracked, view_at in T. destruct T as (ps & N & I & [R1 R2] & _). exists ps. split; [exact N|]. split; [exact I|].
  assert (ND : NoDup (dkeys (t_mean (fold_left track (kept insts) t0)))) by (apply track_mean_nodup; constructor).
  rewrite mean_fold by exact ND. split.
  - intros P. destruct (R1 P) as (A & B & C). rewrite C. auto.
  - intros P. destruct (R2 P) as (m & M & A & B & C & D & G). exists m, M, (sum_distance ps), (Z.of_nat (length ps)). rewrite G.
    split; [exact A|]. split; [exact B|]. split; [reflexivity|]. split; [exact C|]. split; [exact D|]. split; [reflexivity|]. split; [reflexivity|].
    split; [destruct ps; [contradiction P; reflexivity|cbn [length]; lia]|].
    destruct C as [_ C], D as [_ D]. clear - C D. induction ps as [|p ps IH]; [cbn; lia|]. unfold sum_distance in *. cbn [fold_right length].
    pose proof (C p ltac:(left; reflexivity)). pose proof (D p ltac:(left; reflexivity)).
    specialize (IH ltac:(intros q Hq; apply C; right; exact Hq) ltac:(intros q Hq; apply D; right; exact Hq)). lia. Qed.
Print Assumptions C35_distances.

(** On a fresh collector the entries exist exactly when such a pair exists. *)
Theorem C35_entries : forall insts s, 0 <= s < 20 -> Forall (fun i => Forall (fun s => 0 <= s) (d_written i)) insts ->
  let c := collect new_collector insts in let pair := exists i j, write_read (kept insts) s i j in
  (pair <-> dget (min_dist c) s <> None) /\ (pair <-> dget (max_dist c) s <> None) /\ (pair <-> dget (mean_dist c) s <> None).
Proof. intros insts s Hs W. cbv zeta. destruct (C35_distances new_collector insts s Hs W) as (ps & _ & I & A & B). cbn [new_collector min_dist max_dist mean_dist] in A.
  destruct ps as [|[i j] ps].
  - destruct (A eq_refl) as (-> & -> & ->). cbn [dget]. repeat split; try congruence; intros (i & j & H); apply I in H; destruct H.
  - destruct B as (m & M & sum & n & -> & -> & -> & _); [discriminate|]. assert (P : write_read (kept insts) s i j) by (apply I; left; reflexivity).
    split; [|split]; (split; [discriminate|]); intros _; exists i, j; exact P. Qed.
Print Assumptions C35_entries.

(** The hypothesis holds of everything capstone decodes. *)
Theorem C35_decoded : forall enc addr ign c d, (forall code, In (OReg code) (c_operands c) -> 0 <= code) -> view enc addr ign c = Ok d ->
  Forall (fun s => 0 <= s) (d_written d).
Proof. intros enc addr ign c d H E. unfold view in E.
  destruct (fst (storages_used (caps_queries c) no_caches)) as [u|]; cbn [bind] in E; [|discriminate].
  destruct (storages_written (caps_queries c) no_caches) as [[w|] k] eqn:Ew; cbn [fst bind] in E; [|discriminate].
  destruct (fst (storages_read (caps_queries c) no_caches)) as [r|]; cbn [bind] in E; [|discriminate].
  destruct (registers_written c) as [rw|] eqn:Erw; cbn [bind] in E; [|discriminate].
  destruct (registers_read c) as [rr|]; cbn [bind] in E; [|discriminate].
  destruct (is_branch c) as [b|] eqn:Eb; cbn [bind] in E; [|discriminate].
  destruct (jumping_address c) as [j|]; cbn [bind] in E; [|discriminate].
  assert (d_written d = w) as -> by (injection E as <-; reflexivity).
  assert (RW : forall x, In x rw -> 0 <= x).
  { intros x Hx. unfold registers_written in Erw. destruct (c_kind c).
    - assert (rw = []) as -> by congruence. contradiction.
    - destruct (used_values c rw x Erw Hx) as [A|(code & A & _ & B)]; [lia|specialize (H code B); lia].
    - destruct (registers_used c) as [l|] eqn:El; cbn [rmap] in Erw; [|discriminate]. assert (rw = firstn 1 l) as -> by congruence.
      destruct (used_values c l x El (firstn1_in _ _ Hx)) as [A|(code & A & _ & B)]; [lia|specialize (H code B); lia]. }
  unfold storages_written in Ew. cbn [k_written no_caches caps_queries q_written q_writes q_branch] in Ew. rewrite Erw, Eb in Ew.
  assert (RS : forall x, In x (if writes_memory c then rw ++ [STORE] else rw) -> 0 <= x).
  { intros x Hx. destruct (writes_memory c); [apply in_app_iff in Hx; destruct Hx as [Hx|[<-|[]]]; [auto|unfold STORE; lia]|auto]. }
  apply Forall_forall. intros x Hx. destruct (zmem 15 _).
  - assert (Ew' : w = if writes_memory c then rw ++ [STORE] else rw) by congruence. subst w. auto.
  - assert (Ew' : w = if b then (if writes_memory c then rw ++ [STORE] else rw) ++ [PC] else if writes_memory c then rw ++ [STORE] else rw) by congruence. subst w.
    destruct b; [apply in_app_iff in Hx; destruct Hx as [Hx|[<-|[]]]; [auto|unfold PC; lia]|auto]. Qed.
Print Assumptions C35_decoded.
Example C35_example : let c := collect new_collector demo in
  dget (min_dist c) 1 = Some 0 /\ dget (max_dist c) 1 = Some 1 /\ dget (mean_dist c) 1 = Some (1, 2) /\ dget (min_dist c) 16 = Some 0 /\ dget (min_dist c) 5 = None.
Proof. vm_compute. auto. Qed.

(** C36. *)
Theorem C36_empty_spaces : forall c insts, let spaces := empty_spaces (collect c insts) in
  StronglySorted (fun x y => d_enc x > d_enc y) spaces /\
  (forall i, In i spaces -> In i (kept insts)) /\
  (forall i, In i (kept insts) -> exists j, In j spaces /\ d_enc j = d_enc i).
Proof. intros c insts. cbv zeta. unfold collect.
  match goal with |- context [fold_left collect_step insts (?x, ?e, ?t)] => destruct (collect_steps insts x e t) as (c' & e' & E & _ & _ & _ & D) end.
  rewrite E. cbn [empty_spaces] in *. destruct (dedupe_spec _ _ _ _ _ D eq_refl (NoDup_nil _)) as (A & N & I & J).
  set (l := empty_spaces c') in *. set (key := fun i : dinst => - d_enc i).
  pose proof (sort_by_perm key l) as P. pose proof (sort_by_sorted key l) as S.
  split; [|split].
  - assert (N' : NoDup (map d_enc (sort_by key l))) by (eapply Permutation_NoDup; [apply Permutation_map, Permutation_sym, P|rewrite <- A; exact N]).
    clear - S N'. induction S as [|x m Sm IH F]; [constructor|]. inversion N' as [|? ? Nx N'']; subst. constructor; [apply IH, N''|].
    apply Forall_forall. intros y Hy. rewrite Forall_forall in F. specialize (F y Hy). unfold key in F.
    assert (d_enc x <> d_enc y) by (intros Eq; apply Nx; rewrite Eq; apply in_map, Hy). lia.
  - intros i Hi. destruct (J i) as [[]|H]; [eapply Permutation_in; [exact P|exact Hi]|exact H].
  - intros i Hi. assert (H : In (d_enc i) e') by (apply I; right; apply in_map, Hi). rewrite A in H. apply in_map_iff in H. destruct H as (j & Ej & Hj).
    exists j. split; [eapply Permutation_in; [apply Permutation_sym, P|exact Hj]|exact Ej]. Qed.
Print Assumptions C36_empty_spaces.
Example C36_example : map d_enc (empty_spaces (collect new_collector demo)) = [70; 65; 60; 50].
Proof. reflexivity. Qed.

(** C37. *)
Definition at_least_one (f : dinst -> bool) (insts : list dinst) : bool := existsb f (kept insts).
Definition number_of_addresses (f : dinst -> bool) (prog : dprogram) : Z := Z.of_nat (length (filter (fun kv => at_least_one f (snd kv)) prog)).
Theorem C37_addresses : forall w prog k, let w' := collect_program w prog in
  dget (with_cond w') k = entry_for (number_of_addresses (fun i => d_cond i =? k) prog) /\
  dget (with_op w') k = entry_for (number_of_addresses (fun i => d_op i =? k) prog) /\
  dget (with_reg w') k = entry_for (number_of_addresses (fun i => if in_dec Z.eq_dec k (d_used i) then true else false) prog).
Proof. intros w prog k. cbv zeta. unfold collect_program.
  destruct (addresses_spec (dvalues prog) (mkWith [] [] []) (fun _ => 0) (fun _ => 0) (fun _ => 0)) as (A & B & C); try reflexivity; try (intros; lia).
  cbv zeta in *. rewrite (A k), (B k), (C k). cbn [Z.add].
  assert (G : forall f g, (forall l, f l = at_least_one g l) -> Z.of_nat (length (filter f (dvalues prog))) = number_of_addresses g prog).
  { clear. intros f g H. unfold number_of_addresses, dvalues. f_equal. induction prog as [|[a l] prog IH]; [reflexivity|]. cbn [map filter snd]. rewrite H. destruct (at_least_one g l); cbn [length]; rewrite IH; reflexivity. }
  assert (X : forall (g : dinst -> bool) l, existsb (fun i => negb (d_ignore i) && g i) l = at_least_one g l).
  { intros g l. unfold at_least_one, kept. induction l as [|x l IH]; [reflexivity|]. cbn [existsb filter]. destruct (d_ignore x); cbn [negb andb existsb orb]; rewrite IH; reflexivity. }
  rewrite (G (has d_cond k) (fun i => d_cond i =? k)) by (intros l; apply X). rewrite (G (has d_op k) (fun i => d_op i =? k)) by (intros l; apply X).
  rewrite (G (has_storage k) (fun i => if in_dec Z.eq_dec k (d_used i) then true else false)); [auto|].
  intros l. rewrite <- X. unfold has_storage. induction l as [|x l IH]; [reflexivity|]. cbn [existsb]. rewrite IH. f_equal. f_equal.
  destruct (in_dec Z.eq_dec k (d_used x)) as [i|n]; [apply zmem_in, i|apply zmem_false, n]. Qed.
Print Assumptions C37_addresses.
Example C37_example : let w := collect_program (mkWith [(3, 9)] [] []) [(0, demo); (4, [mkD 60 12 false 0 3 [2; 3] [16] [2; 3] [] [2; 3] false KOther None])] in
  dget (with_cond w) 0 = Some 2 /\ dget (with_cond w) 14 = Some 1 /\ dget (with_cond w) 3 = None /\ dget (with_op w) 2 = None /\ dget (with_reg w) 2 = Some 2.
Proof. vm_compute. auto. Qed.
