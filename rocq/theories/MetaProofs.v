(** Lemmas about the metadata collectors. *)
From Verif Require Import ListLemmas FlipModel FlipProofs InstModel MetaModel MetaSpec.
From Coq Require Import ZifyBool ZifyNat Permutation Sorted.

(** *** Counting *)
Definition dget0 (d : dict Z) (k : Z) : Z := match dget d k with Some n => n | None => 0 end.

Lemma inc_key_get d x k : dget (inc_key d x) k = if k =? x then Some (dget0 d x + 1) else dget d k.
Proof. unfold inc_key, dget0. destruct (dget d x) as [n|]; rewrite dget_dset; destruct (k =? x); reflexivity. Qed.

Lemma inc_keys_get ks : forall d k, dget (inc_keys d ks) k =
  let n := Z.of_nat (count_occ Z.eq_dec ks k) in if n =? 0 then dget d k else Some (dget0 d k + n).
Proof. unfold inc_keys. induction ks as [|x ks IH]; intros d k; cbn [fold_left count_occ]; [reflexivity|]. rewrite IH. cbv zeta. unfold dget0 at 1. rewrite inc_key_get.
  destruct (Z.eq_dec x k) as [->|N].
  - rewrite Z.eqb_refl. replace (Z.of_nat (S (count_occ Z.eq_dec ks k)) =? 0) with false by lia.
    destruct (Z.eqb_spec (Z.of_nat (count_occ Z.eq_dec ks k)) 0); f_equal; lia.
  - replace (k =? x) with false by lia. reflexivity. Qed.

Lemma inc_keys_app d a b : inc_keys d (a ++ b) = inc_keys (inc_keys d a) b.
Proof. apply fold_left_app. Qed.

Lemma count_occ_map (f : dinst -> Z) l k : count_occ Z.eq_dec (map f l) k = length (filter (fun i => f i =? k) l).
Proof. induction l as [|x l IH]; cbn [map count_occ filter]; [reflexivity|]. destruct (Z.eq_dec (f x) k) as [E|E].
  - replace (f x =? k) with true by lia. cbn [length]. rewrite IH. reflexivity.
  - replace (f x =? k) with false by lia. exact IH. Qed.

(** *** The loop of collect, component by component *)
Definition dedupe_step (st : list Z * list dinst) (i : dinst) : list Z * list dinst :=
  if zmem (d_enc i) (fst st) then st else (fst st ++ [d_enc i], snd st ++ [i]).

Lemma collect_steps insts : forall c encs t, exists c' encs',
  fold_left collect_step insts (c, encs, t) = (c', encs', fold_left track (kept insts) t) /\
  storage_count c' = inc_keys (storage_count c) (flat_map d_used (kept insts)) /\
  condition_count c' = inc_keys (condition_count c) (map d_cond (kept insts)) /\
  instruction_count c' = inc_keys (instruction_count c) (map d_op (kept insts)) /\
  (encs', empty_spaces c') = fold_left dedupe_step (kept insts) (encs, empty_spaces c).
Proof. induction insts as [|i insts IH]; intros c encs t.
  - exists c, encs. cbn. auto.
  - cbn [fold_left kept filter]. unfold collect_step at 2. destruct (d_ignore i); cbn [negb]; [apply IH|].
    destruct (zmem (d_enc i) encs) eqn:Em;
    (match goal with |- context [fold_left collect_step insts (?c1, ?e1, ?t1)] => destruct (IH c1 e1 t1) as (c' & encs' & E & A & B & D & F) end;
    exists c', encs'; split; [exact E|]; cbn [storage_count condition_count instruction_count empty_spaces flat_map map fold_left] in *;
    fold (kept insts); rewrite inc_keys_app; split; [exact A|]; split; [exact B|]; split; [exact D|];
    unfold dedupe_step at 2; cbn [fst snd]; rewrite Em; exact F). Qed.

Lemma dedupe_spec l : forall encs spaces encs' spaces', (encs', spaces') = fold_left dedupe_step l (encs, spaces) ->
  encs = map d_enc spaces -> NoDup encs ->
  encs' = map d_enc spaces' /\ NoDup encs' /\ (forall e, In e encs' <-> In e encs \/ In e (map d_enc l)) /\ (forall i, In i spaces' -> In i spaces \/ In i l).
Proof. induction l as [|x l IH]; intros encs spaces encs' spaces' H E N; cbn [fold_left] in H.
  - assert (encs' = encs) as -> by congruence. assert (spaces' = spaces) as -> by congruence. cbn. repeat split; auto; intuition.
  - unfold dedupe_step at 2 in H. cbn [fst snd] in H. destruct (zmem (d_enc x) encs) eqn:Z0.
    + apply zmem_in in Z0. destruct (IH _ _ _ _ H E N) as (A & B & C & D). split; [exact A|]. split; [exact B|]. split.
      * intros e. rewrite C. cbn [map In]. split; [tauto|]. intros [P|[<-|P]]; auto.
      * intros i Hi. destruct (D i Hi); cbn; auto.
    + apply zmem_false in Z0. destruct (IH _ _ _ _ H) as (A & B & C & D).
      * subst. rewrite map_app. reflexivity.
      * apply NoDup_app_intro; [exact N|repeat constructor; auto|]. intros y Hy [<-|[]]. contradiction.
      * split; [exact A|]. split; [exact B|]. split.
        -- intros e. rewrite C, in_app_iff. cbn [map In]. tauto.
        -- intros i Hi. destruct (D i Hi) as [P|P]; [apply in_app_iff in P; cbn in P; destruct P as [P|[->|[]]]; cbn; auto|cbn; auto]. Qed.

(** *** Tracking one storage *)
Lemma nth_list_set {A} (l : list A) i j v d : nth j (list_set l i v) d = if Nat.eqb i j then (if Nat.ltb i (length l) then v else d) else nth j l d.
Proof. revert i j. induction l as [|a l IH]; intros [|i] [|j]; cbn; try reflexivity; try (destruct (Nat.eqb i j); reflexivity).
  rewrite IH. destruct (Nat.eqb i j); [|reflexivity]. change (S i <? S (length l))%nat with (i <? length l)%nat. reflexivity. Qed.
Lemma list_set_len {A} (l : list A) k v : length (list_set l k v) = length l.
Proof. revert k. induction l as [|a l IH]; intros [|k]; cbn; auto. Qed.

Definition sized (t : tracking) : Prop := length (t_dist t) = 21%nat /\ length (t_defined t) = 21%nat.
Definition view_at (s : Z) (t : tracking) := (dget (t_min t) s, dget (t_max t) s, dget (t_mean t) s, nth (Z.to_nat s) (t_dist t) 0, nth (Z.to_nat s) (t_defined t) false).

Definition view_read (r : bool) (v : option Z * option Z * option (Z * Z) * Z * bool) :=
  let '(mn, mx, me, ds, def) := v in
  if def then
    if r then
      match me with
      | None => (Some ds, Some ds, Some (ds, 1), 0, false)
      | Some (d, n) => ((match mn with Some m => if m >? ds then Some ds else mn | None => mn end),
                        (match mx with Some m => if m <? ds then Some ds else mx | None => mx end), Some (d + ds, n + 1), 0, false)
      end
    else (mn, mx, me, ds + 1, true)
  else v.

Lemma visit_sized read t s : sized t -> sized (visit_storage read t s).
Proof. intros [A B]. unfold visit_storage. destruct (nth (Z.to_nat s) (t_defined t) false); [|split; assumption].
  destruct (zmem s read).
  - destruct (dget (t_mean t) s) as [[d n]|]; split; cbn [t_dist t_defined]; rewrite list_set_len; assumption.
  - split; cbn [t_dist t_defined]; rewrite ?list_set_len; assumption. Qed.

Lemma visit_same read t s : sized t -> 0 <= s < 20 -> view_at s (visit_storage read t s) = view_read (zmem s read) (view_at s t).
Proof. intros [A B] Hs. unfold view_at, visit_storage, view_read. destruct (nth (Z.to_nat s) (t_defined t) false) eqn:D; [|rewrite D; reflexivity].
  assert (L : (Z.to_nat s <? 21)%nat = true) by (apply Nat.ltb_lt; lia).
  destruct (zmem s read).
  - destruct (dget (t_mean t) s) as [[d n]|]; cbn [t_min t_max t_mean t_dist t_defined].
    + rewrite !nth_list_set, Nat.eqb_refl, A, B, L. rewrite dget_dset_same.
      destruct (dget (t_min t) s) as [m1|] eqn:E1; destruct (dget (t_max t) s) as [m2|] eqn:E2;
      repeat match goal with |- context [if ?b then dset _ _ _ else _] => destruct b end; rewrite ?dget_dset_same, ?E1, ?E2; reflexivity.
    + rewrite !nth_list_set, Nat.eqb_refl, A, B, L, !dget_dset_same. reflexivity.
  - cbn [t_min t_max t_mean t_dist t_defined]. rewrite nth_list_set, Nat.eqb_refl, A, L, D. reflexivity. Qed.

Lemma visit_other read t s s' : s' <> s -> 0 <= s -> 0 <= s' -> view_at s' (visit_storage read t s) = view_at s' t.
Proof. intros N Hs Hs'. unfold view_at, visit_storage. destruct (nth (Z.to_nat s) (t_defined t) false) eqn:D; [|reflexivity].
  assert (L : (Z.to_nat s =? Z.to_nat s')%nat = false) by (apply Nat.eqb_neq; lia).
  destruct (zmem s read).
  - destruct (dget (t_mean t) s) as [[d n]|]; cbn [t_min t_max t_mean t_dist t_defined]; rewrite !nth_list_set, L.
    + destruct (dget (t_min t) s) as [m1|]; destruct (dget (t_max t) s) as [m2|];
      repeat match goal with |- context [if ?b then dset _ _ _ else _] => destruct b end; rewrite ?dget_dset_other by exact N; reflexivity.
    + rewrite !dget_dset_other by exact N. reflexivity.
  - cbn [t_min t_max t_mean t_dist t_defined]. rewrite nth_list_set, L. reflexivity. Qed.

Lemma visits read l : forall t, sized t -> NoDup l -> Forall (fun s => 0 <= s < 20) l ->
  sized (fold_left (visit_storage read) l t) /\
  forall s, 0 <= s < 20 -> view_at s (fold_left (visit_storage read) l t) = if in_dec Z.eq_dec s l then view_read (zmem s read) (view_at s t) else view_at s t.
Proof. induction l as [|x l IH]; intros t S N F; cbn [fold_left].
  - split; [exact S|]. intros s Hs. destruct (in_dec Z.eq_dec s []) as [[]|]; reflexivity.
  - inversion N as [|? ? Nx N']; subst. inversion F as [|? ? Fx F']; subst.
    destruct (IH (visit_storage read t x) (visit_sized _ _ _ S) N' F') as [A B]. split; [exact A|]. intros s Hs. rewrite (B s Hs).
    destruct (Z.eq_dec s x) as [->|Ns].
    + destruct (in_dec Z.eq_dec x l); [contradiction|]. rewrite visit_same by assumption. destruct (in_dec Z.eq_dec x (x :: l)) as [_|C]; [reflexivity|exfalso; apply C; left; reflexivity].
    + rewrite visit_other by lia. destruct (in_dec Z.eq_dec s l) as [C|C], (in_dec Z.eq_dec s (x :: l)) as [D|D]; try reflexivity.
      * exfalso; apply D; right; exact C.
      * exfalso; destruct D as [D|D]; [congruence|contradiction]. Qed.

Lemma writes_view l : forall t, sized t -> Forall (fun s => 0 <= s) l -> sized (fold_left write_storage l t) /\
  forall s, 0 <= s < 20 -> view_at s (fold_left write_storage l t) =
    let '(mn, mx, me, ds, def) := view_at s t in if in_dec Z.eq_dec s l then (mn, mx, me, 0, true) else (mn, mx, me, ds, def).
Proof. induction l as [|x l IH]; intros t S F; cbn [fold_left].
  - split; [exact S|]. intros s Hs. unfold view_at. destruct (in_dec Z.eq_dec s []) as [[]|]; reflexivity.
  - inversion F as [|? ? Fx F']; subst. assert (S1 : sized (write_storage t x)) by (destruct S; split; cbn; rewrite list_set_len; assumption).
    destruct (IH _ S1 F') as [A B]. split; [exact A|]. intros s Hs. rewrite (B s Hs). unfold view_at. cbn [write_storage t_min t_max t_mean t_dist t_defined].
    rewrite !nth_list_set. destruct S as [S2 S3]. rewrite S2, S3. destruct (Z.eq_dec x s) as [->|Ns].
    + rewrite Nat.eqb_refl. replace (Z.to_nat s <? 21)%nat with true by (symmetry; apply Nat.ltb_lt; lia).
      destruct (in_dec Z.eq_dec s (s :: l)) as [_|C]; [|exfalso; apply C; left; reflexivity]. destruct (in_dec Z.eq_dec s l); reflexivity.
    + replace (Z.to_nat x =? Z.to_nat s)%nat with false by (symmetry; apply Nat.eqb_neq; lia).
      destruct (in_dec Z.eq_dec s l) as [C|C], (in_dec Z.eq_dec s (x :: l)) as [D|D]; try reflexivity.
      * exfalso; apply D; right; exact C.
      * exfalso; destruct D as [D|D]; [congruence|contradiction]. Qed.

Definition nonneg_written (i : dinst) : Prop := Forall (fun s => 0 <= s) (d_written i).

Lemma track_view t i s : sized t -> nonneg_written i -> 0 <= s < 20 -> sized (track t i) /\
  view_at s (track t i) =
    let '(mn, mx, me, ds, def) := view_read (zmem s (d_read i)) (view_at s t) in
    if in_dec Z.eq_dec s (d_written i) then (mn, mx, me, 0, true) else (mn, mx, me, ds, def).
Proof. intros S W Hs. unfold track, STORAGE_COUNT.
  destruct (visits (d_read i) (zrange 0 20) t S (zrange_nodup 0 20)) as [A B].
  { apply Forall_forall. intros x Hx. apply in_zrange in Hx. exact Hx. }
  destruct (writes_view (d_written i) _ A W) as [C D]. split; [exact C|]. rewrite (D s Hs), (B s Hs).
  destruct (in_dec Z.eq_dec s (zrange 0 20)) as [_|N]; [reflexivity|]. exfalso. apply N, in_zrange. exact Hs. Qed.

(** *** Open writes *)
Definition open_at (L : list dinst) (s : Z) (i : nat) : Prop :=
  writes L s i /\ forall k, (i < k < length L)%nat -> ~ writes L s k /\ ~ reads L s k.

Lemma writes_lt L s i : writes L s i -> (i < length L)%nat.
Proof. intros (x & E & _). apply nth_error_Some. congruence. Qed.
Lemma reads_lt L s i : reads L s i -> (i < length L)%nat.
Proof. intros (x & E & _). apply nth_error_Some. congruence. Qed.
Lemma writes_snoc L x s i : writes (L ++ [x]) s i <-> writes L s i \/ (i = length L /\ In s (d_written x)).
Proof. unfold writes. destruct (lt_eq_lt_dec i (length L)) as [[H|H]|H].
  - rewrite nth_error_app1 by exact H. split; [auto|]. intros [P|[P _]]; [exact P|lia].
  - subst i. rewrite nth_error_app2, Nat.sub_diag by lia. cbn. split.
    + intros (y & E & I). right. split; [reflexivity|]. congruence.
    + intros [(y & E & _)|[_ I]]; [assert (nth_error L (length L) <> None) by congruence; apply nth_error_Some in H; lia|exists x; auto].
  - split; [intros P; apply (writes_lt (L ++ [x])) in P; rewrite app_length in P; cbn in P; lia|]. intros [P|[P _]]; [apply (writes_lt L) in P; lia|lia]. Qed.
Lemma reads_snoc L x s i : reads (L ++ [x]) s i <-> reads L s i \/ (i = length L /\ In s (d_read x)).
Proof. unfold reads. destruct (lt_eq_lt_dec i (length L)) as [[H|H]|H].
  - rewrite nth_error_app1 by exact H. split; [auto|]. intros [P|[P _]]; [exact P|lia].
  - subst i. rewrite nth_error_app2, Nat.sub_diag by lia. cbn. split.
    + intros (y & E & I). right. split; [reflexivity|]. congruence.
    + intros [(y & E & _)|[_ I]]; [assert (nth_error L (length L) <> None) by congruence; apply nth_error_Some in H; lia|exists x; auto].
  - split; [intros P; apply (reads_lt (L ++ [x])) in P; rewrite app_length in P; cbn in P; lia|]. intros [P|[P _]]; [apply (reads_lt L) in P; lia|lia]. Qed.

Lemma open_snoc L x s i : open_at (L ++ [x]) s i <->
  (i = length L /\ In s (d_written x)) \/ (open_at L s i /\ ~ In s (d_written x) /\ ~ In s (d_read x)).
Proof. unfold open_at. rewrite app_length. cbn [length]. split.
  - intros [W K]. apply writes_snoc in W. destruct W as [W|W]; [|auto]. right. pose proof (writes_lt _ _ _ W).
    destruct (K (length L)) as [K1 K2]; [lia|]. rewrite writes_snoc in K1. rewrite reads_snoc in K2.
    split; [split; [exact W|]|split; intros I; [apply K1; auto|apply K2; auto]].
    intros k Hk. destruct (K k) as [A B]; [lia|]. rewrite writes_snoc in A. rewrite reads_snoc in B. tauto.
  - intros [[-> I]|[[W K] [A B]]].
    + split; [apply writes_snoc; auto|]. intros k Hk. lia.
    + split; [apply writes_snoc; auto|]. intros k Hk. destruct (Nat.eq_dec k (length L)) as [->|N].
      * rewrite writes_snoc, reads_snoc. split; intros [P|[_ P]]; try contradiction; [apply writes_lt in P|apply reads_lt in P]; lia.
      * destruct (K k) as [C D]; [lia|]. rewrite writes_snoc, reads_snoc. split; intros [P|[P _]]; try contradiction; lia. Qed.

Lemma open_unique L s i j : open_at L s i -> open_at L s j -> i = j.
Proof. intros [W K] [W' K']. destruct (lt_eq_lt_dec i j) as [[H|H]|H]; [|exact H|].
  - exfalso. pose proof (writes_lt _ _ _ W'). destruct (K j) as [A _]; [lia|exact (A W')].
  - exfalso. pose proof (writes_lt _ _ _ W). destruct (K' i) as [A _]; [lia|exact (A W)]. Qed.

Lemma write_read_snoc L x s i j : write_read (L ++ [x]) s i j <-> write_read L s i j \/ (j = length L /\ open_at L s i /\ In s (d_read x)).
Proof. unfold write_read. split.
  - intros (H & W & R & K). apply reads_snoc in R. apply writes_snoc in W. destruct W as [W|[W _]]; [|destruct R as [R|[R _]]; [apply reads_lt in R|]; lia].
    destruct R as [R|[-> R]].
    + left. split; [exact H|]. split; [exact W|]. split; [exact R|]. intros k Hk. specialize (K k Hk). rewrite writes_snoc, reads_snoc in K. tauto.
    + right. split; [reflexivity|]. split; [|exact R]. split; [exact W|]. intros k Hk. specialize (K k Hk). rewrite writes_snoc, reads_snoc in K. tauto.
  - intros [(H & W & R & K)|(-> & [W K] & R)].
    + split; [exact H|]. split; [apply writes_snoc; auto|]. split; [apply reads_snoc; auto|]. intros k Hk. specialize (K k Hk). apply reads_lt in R.
      rewrite writes_snoc, reads_snoc. split; intros [P|[P _]]; try tauto; lia.
    + split; [apply writes_lt in W; exact W|]. split; [apply writes_snoc; auto|]. split; [apply reads_snoc; auto|]. intros k Hk. specialize (K k Hk).
      rewrite writes_snoc, reads_snoc. split; intros [P|[P _]]; try tauto; lia. Qed.

(** The dictionaries after the prefix [L], starting from [mn0], [mx0]. *)
Definition recorded (mn0 mx0 : option Z) (ps : list (nat * nat)) (mn mx : option Z) (me : option (Z * Z)) : Prop :=
  (ps = [] -> mn = mn0 /\ mx = mx0 /\ me = None) /\
  (ps <> [] -> exists a b, mn = Some a /\ mx = Some b /\ least a ps /\ greatest b ps /\ me = Some (sum_distance ps, Z.of_nat (length ps))).

Definition tracked (L : list dinst) (s : Z) (mn0 mx0 : option Z) (v : option Z * option Z * option (Z * Z) * Z * bool) : Prop :=
  let '(mn, mx, me, ds, def) := v in
  exists ps, NoDup ps /\ (forall i j, In (i, j) ps <-> write_read L s i j) /\ recorded mn0 mx0 ps mn mx me /\
    (if def then exists i, open_at L s i /\ ds = distance (i, length L) else forall i, ~ open_at L s i).

Lemma sum_distance_snoc ps p : sum_distance (ps ++ [p]) = sum_distance ps + distance p.
Proof. unfold sum_distance. induction ps as [|q ps IH]; cbn [app fold_right]; lia. Qed.

Lemma recorded_snoc mn0 mx0 ps mn mx me p : recorded mn0 mx0 ps mn mx me ->
  let ds := distance p in
  match me with
  | None => recorded mn0 mx0 (ps ++ [p]) (Some ds) (Some ds) (Some (ds, 1))
  | Some (d, n) => recorded mn0 mx0 (ps ++ [p]) (match mn with Some m => if m >? ds then Some ds else mn | None => mn end)
                        (match mx with Some m => if m <? ds then Some ds else mx | None => mx end) (Some (d + ds, n + 1))
  end.
Proof. intros [R1 R2]. cbv zeta. destruct ps as [|q ps'] eqn:Eps.
  - destruct (R1 eq_refl) as (_ & _ & ->). split; [discriminate|]. intros _. exists (distance p), (distance p). split; [reflexivity|]. split; [reflexivity|].
    cbn [app]. split; [split; [exists p; cbn; auto|intros p' [<-|[]]; lia]|]. split; [split; [exists p; cbn; auto|intros p' [<-|[]]; lia]|]. unfold sum_distance; cbn; repeat f_equal; lia.
  - rewrite <- Eps in *. assert (NE : ps <> []) by (rewrite Eps; discriminate). destruct (R2 NE) as (a & b & -> & -> & [[pa [Ia Da]] La] & [[pb [Ib Db]] Gb] & ->).
    split; [destruct ps; discriminate|]. intros _.
    exists (Z.min a (distance p)), (Z.max b (distance p)).
    split; [destruct (Z.gtb_spec a (distance p)); f_equal; lia|]. split; [destruct (Z.ltb_spec b (distance p)); f_equal; lia|].
    split; [split|split; [split|]].
    + destruct (Z.le_gt_cases a (distance p)).
      * exists pa. split; [apply in_app_iff; auto|lia].
      * exists p. split; [apply in_app_iff; right; left; reflexivity|lia].
    + intros p' Hp. apply in_app_iff in Hp. destruct Hp as [Hp|[<-|[]]]; [specialize (La _ Hp); lia|lia].
    + destruct (Z.le_gt_cases (distance p) b).
      * exists pb. split; [apply in_app_iff; auto|lia].
      * exists p. split; [apply in_app_iff; right; left; reflexivity|lia].
    + intros p' Hp. apply in_app_iff in Hp. destruct Hp as [Hp|[<-|[]]]; [specialize (Gb _ Hp); lia|lia].
    + rewrite sum_distance_snoc, app_length. cbn [length]. repeat f_equal; lia. Qed.

Lemma tracked_step L x s mn0 mx0 v : tracked L s mn0 mx0 v ->
  tracked (L ++ [x]) s mn0 mx0 (let '(mn, mx, me, ds, def) := view_read (zmem s (d_read x)) v in
    if in_dec Z.eq_dec s (d_written x) then (mn, mx, me, 0, true) else (mn, mx, me, ds, def)).
Proof. destruct v as [[[[mn mx] me] ds] def]. intros (ps & N & I & R & O). cbn [view_read].
  destruct def.
  - destruct O as (i & Oi & ->).
    destruct (zmem s (d_read x)) eqn:Er.
    + apply zmem_in in Er. set (p := (i, length L)). fold p.
      assert (T : forall def ds', (if def : bool then exists k, open_at (L ++ [x]) s k /\ ds' = distance (k, length (L ++ [x])) else forall k, ~ open_at (L ++ [x]) s k) ->
        forall mn' mx' me', recorded mn0 mx0 (ps ++ [p]) mn' mx' me' -> tracked (L ++ [x]) s mn0 mx0 (mn', mx', me', ds', def)).
      { intros def ds' HO mn' mx' me' HR. exists (ps ++ [p]). split; [|split; [|split; [exact HR|exact HO]]].
        - apply NoDup_app_intro; [exact N|repeat constructor; auto|]. intros y Hy [<-|[]]. apply I in Hy. destruct Hy as (_ & _ & Hr & _). apply reads_lt in Hr. lia.
        - intros a b. rewrite in_app_iff, I, write_read_snoc. split.
          + intros [P|[P|[]]]; [auto|]. injection P as <- <-. right. auto.
          + intros [P|(-> & P & _)]; [auto|]. right; left. unfold p. f_equal. eapply open_unique; eauto. }
      assert (RS := recorded_snoc mn0 mx0 ps mn mx me p R). cbv zeta in RS.
      assert (O1 : In s (d_written x) -> exists k, open_at (L ++ [x]) s k /\ 0 = distance (k, length (L ++ [x]))).
      { intros W. exists (length L). split; [apply open_snoc; auto|]. unfold distance; cbn [fst snd]. rewrite app_length. cbn [length]. lia. }
      assert (O2 : ~ In s (d_written x) -> forall k, ~ open_at (L ++ [x]) s k).
      { intros W k Hk. apply open_snoc in Hk. tauto. }
      destruct me as [[d n]|]; destruct (in_dec Z.eq_dec s (d_written x)) as [W|W];
        (apply T; [first [exact (O1 W)|exact (O2 W)]|exact RS]).
    + apply zmem_false in Er. assert (Ipp : forall a b, In (a, b) ps <-> write_read (L ++ [x]) s a b) by (intros a b; rewrite I, write_read_snoc; tauto).
      destruct (in_dec Z.eq_dec s (d_written x)) as [W|W]; exists ps; (split; [exact N|]); (split; [exact Ipp|]); (split; [exact R|]).
      * exists (length L). split; [apply open_snoc; auto|]. unfold distance; cbn [fst snd]. rewrite app_length. cbn [length]. lia.
      * exists i. split; [apply open_snoc; auto|]. unfold distance; cbn [fst snd]. rewrite app_length. cbn [length]. lia.
  - assert (Ipp : forall a b, In (a, b) ps <-> write_read (L ++ [x]) s a b) by (intros a b; rewrite I, write_read_snoc; split; [intros X; left; exact X|intros [X|(_ & X & _)]; [exact X|destruct (O a X)]]).
    destruct (in_dec Z.eq_dec s (d_written x)) as [W|W]; exists ps; (split; [exact N|]); (split; [exact Ipp|]); (split; [exact R|]).
    + exists (length L). split; [apply open_snoc; auto|]. unfold distance; cbn [fst snd]. rewrite app_length. cbn [length]. lia.
    + intros k Hk. apply open_snoc in Hk. destruct Hk as [[_ Hk]|[Hk _]]; [contradiction|apply (O k Hk)]. Qed.

Lemma tracked_nil s mn0 mx0 : tracked [] s mn0 mx0 (mn0, mx0, None, 0, false).
Proof. exists []. split; [constructor|]. split.
  - intros i j. split; [intros []|]. intros (_ & W & _). apply writes_lt in W. cbn in W. lia.
  - split; [split; [auto|intros H; contradiction H; reflexivity]|]. intros i [W _]. apply writes_lt in W. cbn in W. lia. Qed.

Lemma tracked_all L : forall t, sized t -> Forall nonneg_written L -> (forall s, dget (t_mean t) s = None) ->
  (forall s, 0 <= s < 20 -> nth (Z.to_nat s) (t_dist t) 0 = 0 /\ nth (Z.to_nat s) (t_defined t) false = false) ->
  sized (fold_left track L t) /\ forall s, 0 <= s < 20 -> tracked L s (dget (t_min t) s) (dget (t_max t) s) (view_at s (fold_left track L t)).
Proof. intros t S F M Z0. induction L as [|x L IH] using rev_ind.
  - cbn. split; [exact S|]. intros s Hs. unfold view_at. rewrite M. destruct (Z0 s Hs) as [-> ->]. apply tracked_nil.
  - apply Forall_app in F. destruct F as [F Fx]. inversion Fx as [|? ? Fx' _]; subst. destruct (IH F) as [A B]. rewrite fold_left_app. cbn [fold_left].
    split; [apply (track_view _ _ 0 A Fx'); lia|]. intros s Hs. destruct (track_view _ _ s A Fx' Hs) as [_ ->]. apply tracked_step, B, Hs. Qed.

(** Only storages that are tracked get an entry. *)
Lemma mean_fold (m : dict (Z * Z)) : forall d s, NoDup (dkeys m) ->
  dget (fold_left (fun m kv => dset m (fst kv) (snd kv)) m d) s = match dget m s with Some v => Some v | None => dget d s end.
Proof. induction m as [|[k v] m IH]; intros d s N; cbn [fold_left dget fst snd]; [reflexivity|].
  inversion N as [|? ? Nk N']; subst. rewrite IH by exact N'. rewrite dget_dset. destruct (Z.eqb_spec s k) as [->|Ns]; [|reflexivity].
  apply dget_none in Nk. rewrite Nk. reflexivity. Qed.

Lemma visit_mean_nodup read t s : NoDup (dkeys (t_mean t)) -> NoDup (dkeys (t_mean (visit_storage read t s))).
Proof. intros N. unfold visit_storage. destruct (nth (Z.to_nat s) (t_defined t) false); [|exact N]. destruct (zmem s read); [|exact N].
  destruct (dget (t_mean t) s) as [[d n]|]; cbn [t_mean]; apply dset_nodup, N. Qed.
Lemma track_mean_nodup L : forall t, NoDup (dkeys (t_mean t)) -> NoDup (dkeys (t_mean (fold_left track L t))).
Proof. induction L as [|x L IH]; intros t N; cbn [fold_left]; [exact N|]. apply IH. unfold track.
  assert (A : forall l t, NoDup (dkeys (t_mean t)) -> NoDup (dkeys (t_mean (fold_left (visit_storage (d_read x)) l t)))).
  { induction l as [|y l IHl]; intros t0 N0; cbn [fold_left]; [exact N0|]. apply IHl, visit_mean_nodup, N0. }
  assert (B : forall l t, NoDup (dkeys (t_mean t)) -> NoDup (dkeys (t_mean (fold_left write_storage l t)))).
  { induction l as [|y l IHl]; intros t0 N0; cbn [fold_left]; [exact N0|]. apply IHl, N0. }
  apply B, A, N. Qed.

(** *** Corrupted programs *)
Lemma mark_keys ks : forall d, NoDup (dkeys d) -> NoDup (dkeys (fold_left mark ks d)) /\ forall k, In k (dkeys (fold_left mark ks d)) <-> In k (dkeys d) \/ In k ks.
Proof. induction ks as [|x ks IH]; intros d N; cbn [fold_left]; [split; [exact N|intros; cbn; tauto]|].
  destruct (IH (mark d x) (dset_nodup _ _ _ N)) as [A B]. split; [exact A|]. intros k. rewrite B. unfold mark. rewrite dkeys_dset. cbn [In].
  unfold dmem. destruct (dget d x) eqn:E.
  - assert (In x (dkeys d)) by (apply dget_some_in; eauto). split; [tauto|]. intros [P|[<-|P]]; auto.
  - rewrite in_app_iff. cbn. tauto. Qed.

Definition has (f : dinst -> Z) (k : Z) (insts : list dinst) : bool := existsb (fun i => negb (d_ignore i) && (f i =? k)) insts.
Definition has_storage (k : Z) (insts : list dinst) : bool := existsb (fun i => negb (d_ignore i) && zmem k (d_used i)) insts.

Lemma marks insts : forall cond op reg, NoDup (dkeys cond) -> NoDup (dkeys op) -> NoDup (dkeys reg) ->
  exists c o r, fold_left (fun st i => let '(cond, op, reg) := st in
                           if d_ignore i then st
                           else (mark cond (d_cond i), mark op (d_op i), fold_left mark (d_used i) reg)) insts (cond, op, reg) = (c, o, r) /\
   NoDup (dkeys c) /\ NoDup (dkeys o) /\ NoDup (dkeys r) /\
   (forall k, In k (dkeys c) <-> In k (dkeys cond) \/ has d_cond k insts = true) /\
   (forall k, In k (dkeys o) <-> In k (dkeys op) \/ has d_op k insts = true) /\
   (forall k, In k (dkeys r) <-> In k (dkeys reg) \/ has_storage k insts = true).
Proof. induction insts as [|i insts IH]; intros cond op reg Nc No Nr; cbn [fold_left].
  - exists cond, op, reg. cbn. repeat split; auto; intuition discriminate.
  - unfold has, has_storage. cbn [existsb]. destruct (d_ignore i); cbn [negb andb orb]; [apply (IH cond op reg Nc No Nr)|].
    destruct (mark_keys [d_cond i] cond Nc) as [C1 C2]. destruct (mark_keys [d_op i] op No) as [O1 O2]. destruct (mark_keys (d_used i) reg Nr) as [R1 R2].
    cbn [fold_left] in *. destruct (IH _ _ _ C1 O1 R1) as (c & o & r & E & A & B & D & F & G & H). exists c, o, r. split; [exact E|].
    split; [exact A|]. split; [exact B|]. split; [exact D|]. fold (has d_cond) (has d_op).
    split; [|split]; intros k.
    + rewrite F, C2. cbn [In]. rewrite orb_true_iff. unfold has. rewrite Z.eqb_eq. tauto.
    + rewrite G, O2. cbn [In]. rewrite orb_true_iff. unfold has. rewrite Z.eqb_eq. tauto.
    + rewrite H, R2. rewrite orb_true_iff, zmem_in. unfold has_storage. tauto. Qed.

Lemma inc_keys_set d ks k b : NoDup ks -> (In k ks <-> b = true) -> dget (inc_keys d ks) k = if b : bool then Some (dget0 d k + 1) else dget d k.
Proof. intros N I. rewrite inc_keys_get. cbv zeta. destruct b.
  - assert (Hk : In k ks) by (apply I; reflexivity). pose proof (proj1 (NoDup_count_occ Z.eq_dec ks) N k). pose proof (proj1 (count_occ_In Z.eq_dec ks k) Hk).
    replace (Z.of_nat (count_occ Z.eq_dec ks k) =? 0) with false by lia. f_equal. lia.
  - assert (Hk : ~ In k ks) by (intros H; apply I in H; discriminate). apply (count_occ_not_In Z.eq_dec) in Hk. rewrite Hk. reflexivity. Qed.

Lemma addresses_spec (vals : list (list dinst)) : forall w (n1 n2 n3 : Z -> Z),
  (forall k, dget (with_cond w) k = entry_for (n1 k)) -> (forall k, dget (with_op w) k = entry_for (n2 k)) -> (forall k, dget (with_reg w) k = entry_for (n3 k)) ->
  (forall k, 0 <= n1 k) -> (forall k, 0 <= n2 k) -> (forall k, 0 <= n3 k) ->
  let w' := fold_left collect_address vals w in
  (forall k, dget (with_cond w') k = entry_for (n1 k + Z.of_nat (length (filter (has d_cond k) vals)))) /\
  (forall k, dget (with_op w') k = entry_for (n2 k + Z.of_nat (length (filter (has d_op k) vals)))) /\
  (forall k, dget (with_reg w') k = entry_for (n3 k + Z.of_nat (length (filter (has_storage k) vals)))).
Proof. induction vals as [|v vals IH]; intros w n1 n2 n3 E1 E2 E3 P1 P2 P3; cbn [fold_left].
  - cbn [filter length]. repeat split; intros k; rewrite Z.add_0_r; auto.
  - destruct (marks v [] [] [] (NoDup_nil _) (NoDup_nil _) (NoDup_nil _)) as (c & o & r & E & Nc & No & Nr & Ic & Io & Ir).
    pose (w1 := mkWith (inc_keys (with_cond w) (dkeys c)) (inc_keys (with_op w) (dkeys o)) (inc_keys (with_reg w) (dkeys r))).
    assert (Ew : collect_address w v = w1) by (unfold collect_address; match goal with |- context [fold_left ?f v ?x] => replace (fold_left f v x) with (c, o, r) by (symmetry; exact E) end; reflexivity). rewrite Ew. clear Ew.
    assert (S : forall d n k ks b, dget d k = entry_for (n k) -> 0 <= n k -> NoDup ks -> (In k ks <-> b = true) ->
       dget (inc_keys d ks) k = entry_for (n k + (if b : bool then 1 else 0))).
    { intros d n k ks b Ed Hn N I. rewrite (inc_keys_set d ks k b N I). unfold dget0. rewrite Ed. unfold entry_for.
      destruct b; [|rewrite Z.add_0_r; reflexivity]. replace (n k + 1 =? 0) with false by lia. destruct (Z.eqb_spec (n k) 0) as [->|]; reflexivity. }
    cbv zeta in IH |- *. destruct (IH w1 (fun k => n1 k + (if has d_cond k v then 1 else 0)) (fun k => n2 k + (if has d_op k v then 1 else 0)) (fun k => n3 k + (if has_storage k v then 1 else 0))) as (A & B & C).
    + intros k. apply S; [apply E1|apply P1|exact Nc|]. rewrite Ic. cbn. tauto.
    + intros k. apply S; [apply E2|apply P2|exact No|]. rewrite Io. cbn. tauto.
    + intros k. apply S; [apply E3|apply P3|exact Nr|]. rewrite Ir. cbn. tauto.
    + intros k. specialize (P1 k). destruct (has d_cond k v); lia.
    + intros k. specialize (P2 k). destruct (has d_op k v); lia.
    + intros k. specialize (P3 k). destruct (has_storage k v); lia.
    + split; [|split]; intros k; cbn [filter].
      * etransitivity; [exact (A k)|]. destruct (has d_cond k v); cbn [length]; f_equal; lia.
      * etransitivity; [exact (B k)|]. destruct (has d_op k v); cbn [length]; f_equal; lia.
      * etransitivity; [exact (C k)|]. destruct (has_storage k v); cbn [length]; f_equal; lia. Qed.
