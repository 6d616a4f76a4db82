(** C57-C59, C76: Huffman codes and part frequencies. *)
From Verif Require Import ListLemmas HuffmanModel HuffmanSpec HuffmanProofs.
From Coq Require Import ZifyBool ZifyNat Permutation Sorted.

Definition code_in (ps : list (Z * code)) : code_of := fun s => match dget ps s with Some c => c | None => [] end.
Definition weight (freq : dict Z) (s : Z) : Z := match dget freq s with Some w => w | None => 0 end.

Lemma encode_tree freq : NoDup (dkeys freq) -> freq <> [] -> exists ps t h, encode freq = Ok ps /\ Permutation ps (leaves t) /\ Permutation (dkeys freq) (symbols_of ps) /\
  merges (map (weight freq) (dkeys freq)) h /\ cost (weight freq) ps = h.
Proof. intros Nd Ne. set (heap := map (fun sw : Z * Z => (snd sw, [(fst sw, @nil bool)])) freq).
  assert (W : forall sw, In sw freq -> weight freq (fst sw) = snd sw). { intros [s w] I. unfold weight. cbn [fst snd]. rewrite (dget_nodup_in _ _ _ Nd I). reflexivity. }
  destruct (encode_loop_ok (weight freq) (length freq) heap) as (top & E & Inv & P & h & Mg & Ct).
  - unfold heap. destruct freq; [congruence|discriminate].
  - unfold heap. rewrite map_length. lia.
  - split; apply Forall_forall; intros i I; unfold heap in I; apply in_map_iff in I; destruct I as (sw & <- & I); cbn [fst snd]; [exists (Leaf (fst sw)); reflexivity|]. cbn [weigh fold_right fst]. rewrite (W _ I). lia.
  - destruct Inv as [T _]. inversion T as [|? ? (t & Ht) _]; subst. exists (sort_pairs (snd top)), t, h. split; [|split; [|split; [|split]]].
    + unfold encode. fold heap. rewrite E. cbn [bind heappop]. reflexivity.
    + rewrite sort_pairs_perm, Ht. reflexivity.
    + unfold symbols_of in *. rewrite sort_pairs_perm, <- P. unfold heap. clear. induction freq as [|sw l IH]; cbn [map flat_map app]; [reflexivity|]. apply perm_skip. exact IH.
    + replace (map (weight freq) (dkeys freq)) with (map fst heap); [exact Mg|]. unfold heap, dkeys. rewrite !map_map. apply map_ext_in. intros sw I. cbn [fst]. symmetry. apply W, I.
    + assert (Cp : forall a b, Permutation a b -> cost (weight freq) a = cost (weight freq) b) by (unfold cost; induction 1; cbn [fold_right]; lia). rewrite (Cp _ _ (sort_pairs_perm _)), Ct. assert (Z0 : costs (weight freq) heap = 0); [|lia]. unfold heap, costs. clear. generalize (weight freq). intros wf. induction freq as [|sw l IH]; cbn [map fold_right]; [reflexivity|]. rewrite IH. cbn [snd cost fold_right length]. lia. Qed.
Lemma tree_total t : forall d, exists p, In p (leaves t) /\ (prefix (snd p) d \/ prefix d (snd p)).
Proof. induction t as [s|l IHl r IHr]; intros d; cbn [leaves].
  - exists (s, []). split; [left; reflexivity|]. left. exists d. reflexivity.
  - destruct d as [|[|] d].
    + destruct (IHl []) as (p & I & _). exists (fst p, false :: snd p). split; [apply in_or_app; left; apply in_map_iff; exists p; auto|]. right. eexists. reflexivity.
    + destruct (IHr d) as (p & I & H). exists (fst p, true :: snd p). split; [apply in_or_app; right; apply in_map_iff; exists p; auto|]. cbn [snd]. destruct H as [(e & ->)|(e & ->)]; [left|right]; exists e; reflexivity.
    + destruct (IHl d) as (p & I & H). exists (fst p, false :: snd p). split; [apply in_or_app; left; apply in_map_iff; exists p; auto|]. cbn [snd]. destruct H as [(e & ->)|(e & ->)]; [left|right]; exists e; reflexivity. Qed.
Definition in_order (p q : Z * code) : Prop := (length (snd p) < length (snd q))%nat \/ length (snd p) = length (snd q) /\ fst p <= fst q.
Lemma insert_pair_sorted p l : StronglySorted in_order l -> StronglySorted in_order (insert_pair p l).
Proof. induction 1 as [|q l S IH F]; cbn [insert_pair]; [constructor; constructor|].
  assert (Tr : forall a b c, in_order a b -> in_order b c -> in_order a c) by (unfold in_order; intros; lia).
  destruct (pair_before p q) eqn:B.
  - assert (O : in_order p q) by (unfold pair_before, pair_ltb in B; unfold in_order; lia). constructor; [constructor; assumption|]. constructor; [exact O|]. eapply Forall_impl; [|exact F]. intros a Ha. eapply Tr; eassumption.
  - assert (O : in_order q p) by (unfold pair_before, pair_ltb in B; unfold in_order; lia). constructor; [exact IH|]. apply Forall_forall. intros a I. apply (Permutation_in _ (insert_pair_perm p l)) in I. destruct I as [<-|I]; [exact O|]. rewrite Forall_forall in F. apply F, I. Qed.
Lemma prefix_compare a b c d : a ++ b = c ++ d -> prefix a c \/ prefix c a.
Proof. revert c. induction a as [|x a IH]; intros c E; [left; exists c; reflexivity|]. destruct c as [|y c]; [right; exists (x :: a); reflexivity|]. cbn [app] in E. injection E as <- E. destruct (IH c E) as [(e & ->)|(e & ->)]; [left|right]; exists e; reflexivity. Qed.

(** C57 *)
Theorem C57_prefix_code : forall freq, NoDup (dkeys freq) ->
  match encode freq with
  | Err e => freq = [] /\ e = IndexError
  | Ok ps =>
    let c := code_in ps in
    (* every symbol has exactly one code word, in the order of length and symbol *)
    Permutation (map fst ps) (dkeys freq) /\ StronglySorted in_order ps /\
    (* no code word starts another one *)
    prefix_free (dkeys freq) c /\
    (* the code is complete: Kraft's sum is one, and every bit string meets a code word *)
    complete_code (dkeys freq) c /\ (forall d, exists s, In s (dkeys freq) /\ (prefix (c s) d \/ prefix d (c s))) /\
    (* messages can be read back *)
    ((2 <= length freq)%nat -> forall m m', incl m (dkeys freq) -> incl m' (dkeys freq) -> message c m = message c m' -> m = m')
  end.
Proof. intros freq Nd. destruct freq as [|sw freq]; [split; reflexivity|]. set (f := sw :: freq) in *.
  destruct (encode_tree f Nd ltac:(discriminate)) as (ps & t & h & E & Pt & Ps & _). assert (Eo := E). rewrite E. cbn zeta.
  assert (Np : NoDup (dkeys ps)) by (eapply Permutation_NoDup; [exact Ps|exact Nd]).
  assert (Cd : forall s c, In (s, c) (leaves t) -> code_in ps s = c). { intros s c I. unfold code_in. rewrite (dget_nodup_in ps s c Np); [reflexivity|]. eapply Permutation_in; [apply Permutation_sym, Pt|exact I]. }
  assert (Lf : forall s, In s (dkeys f) -> In (s, code_in ps s) (leaves t)). { intros s I. apply (Permutation_in _ Ps) in I. unfold symbols_of in I. apply in_map_iff in I. destruct I as ([s' c] & Es & I). cbn in Es. subst s'. apply (Permutation_in _ Pt) in I. rewrite (Cd s c I). exact I. }
  assert (Nl : NoDup (symbols_of (leaves t))) by (unfold symbols_of; eapply Permutation_NoDup; [apply Permutation_map, Pt|exact Np]).
  assert (Pf : prefix_free (dkeys f) (code_in ps)). { intros s u Is Iu H. exact (proj2 (leaves_prefix t _ _ _ _ (Lf s Is) (Lf u Iu) H) Nl). }
  split; [apply Permutation_sym, Ps|]. split; [|split; [exact Pf|split; [|split]]].
  - assert (G : forall l, StronglySorted in_order (sort_pairs l)) by (induction l as [|p l IH]; cbn [sort_pairs fold_right]; [constructor|apply insert_pair_sorted, IH]). unfold encode in Eo. destruct (encode_loop _ _) as [hp|]; [|discriminate]. cbn [bind] in Eo. destruct (heappop hp) as [[top r]|]; [|discriminate]. cbn [bind] in Eo. assert (ps = sort_pairs (snd top)) as -> by congruence. apply G.
  - intros m Hm. rewrite <- (ksum_leaves t m).
    + unfold kraft. assert (K1 : forall l, (forall p, In p l -> code_in ps (fst p) = snd p) -> fold_right (fun s n => 2 ^ (m - Z.of_nat (length (code_in ps s))) + n) 0 (map fst l) = ksum m l).
      { induction l as [|p l IH]; intros H; [reflexivity|]. cbn [map fold_right ksum]. rewrite IH by (intros q I; apply H; right; exact I). rewrite (H p ltac:(left; reflexivity)). reflexivity. }
      rewrite <- (K1 (leaves t)) by (intros [s c] I; apply Cd, I). assert (K2 : forall a b, Permutation a b -> fold_right (fun s n => 2 ^ (m - Z.of_nat (length (code_in ps s))) + n) 0 a = fold_right (fun s n => 2 ^ (m - Z.of_nat (length (code_in ps s))) + n) 0 b) by (induction 1; cbn [fold_right]; lia).
      apply K2. rewrite Ps. unfold symbols_of. apply Permutation_map, Pt.
    + intros [s c] I. cbn [snd]. rewrite <- (Cd s c I). apply Hm. apply (Permutation_in _ (Permutation_sym Ps)). unfold symbols_of. apply in_map_iff. exists (s, c). split; [reflexivity|]. eapply Permutation_in; [apply Permutation_sym, Pt|exact I].
  - intros d. destruct (tree_total t d) as ([s c] & I & H). exists s. rewrite (Cd s c I). split; [|exact H]. apply (Permutation_in _ (Permutation_sym Ps)). unfold symbols_of. apply in_map_iff. exists (s, c). split; [reflexivity|]. eapply Permutation_in; [apply Permutation_sym, Pt|exact I].
  - intros L2. assert (Nn : forall s, In s (dkeys f) -> code_in ps s <> []).
    { intros s Is Ec. assert (X : exists u, In u (dkeys f) /\ u <> s). { unfold f in *. destruct freq as [|sw' freq]; [cbn in L2; lia|]. cbn [dkeys map] in *. apply NoDup_cons_iff in Nd. destruct Nd as [N1 _]. destruct (Z.eq_dec (fst sw) s) as [e|n]; [|exists (fst sw); split; [left; reflexivity|exact n]]. exists (fst sw'). split; [right; left; reflexivity|]. intros e'. apply N1. left. congruence. }
      destruct X as (u & Iu & Nu). apply Nu. symmetry. apply Pf; [exact Is|exact Iu|]. rewrite Ec. exists (code_in ps u). reflexivity. }
    induction m as [|s m IH]; intros m' Im Im' Em.
    + destruct m' as [|s' m']; [reflexivity|]. cbn [message flat_map] in Em. symmetry in Em. apply app_eq_nil in Em. destruct Em as [Em _]. exfalso. exact (Nn s' (Im' s' ltac:(left; reflexivity)) Em).
    + destruct m' as [|s' m'].
      * cbn [message flat_map] in Em. apply app_eq_nil in Em. destruct Em as [Em _]. exfalso. exact (Nn s (Im s ltac:(left; reflexivity)) Em).
      * cbn [message flat_map] in Em. fold (message (code_in ps) m) (message (code_in ps) m') in Em. assert (s' = s) as ->. { destruct (prefix_compare _ _ _ _ Em) as [H|H]; [symmetry|]; apply Pf in H; auto; [apply Im|apply Im'|apply Im'|apply Im]; left; reflexivity. }
        apply app_inv_head in Em. f_equal. apply IH; [intros x I; apply Im; right; exact I|intros x I; apply Im'; right; exact I|exact Em]. Qed.
Print Assumptions C57_prefix_code.
Example C57_example : encode [(0, 5); (1, 2); (2, 1); (3, 1)] = Ok [(0, [true]); (1, [false; false]); (2, [false; true; false]); (3, [false; true; true])].
Proof. vm_compute. reflexivity. Qed.

(** C58 *)
Lemma total_cost w ps : NoDup (dkeys ps) -> forall l, incl l ps -> total_length (map fst l) w (code_in ps) = cost w l.
Proof. intros Nd. induction l as [|[s c] l IH]; intros I; [reflexivity|]. cbn [map total_length fold_right cost fst snd]. fold (total_length (map fst l) w (code_in ps)) (cost w l). rewrite IH by (intros x Hx; apply I; right; exact Hx). unfold code_in. rewrite (dget_nodup_in ps s c Nd) by (apply I; left; reflexivity). reflexivity. Qed.
Lemma total_perm a b w c : Permutation a b -> total_length a w c = total_length b w c.
Proof. unfold total_length. induction 1; cbn [fold_right]; lia. Qed.
Lemma size_fold freq h : (forall p, In p h -> In (fst p) (dkeys freq)) -> forall n,
  foldM (fun size (p : Z * code) => let* w := dget_r freq (fst p) in Ok (size + w * Z.of_nat (length (snd p)))) h n = Ok (n + cost (weight freq) h).
Proof. induction h as [|p h IH]; intros H n; cbn [foldM]; [f_equal; cbn; lia|]. pose proof (H p ltac:(left; reflexivity)) as I. apply dget_some_in in I. destruct I as (w & G). unfold dget_r at 1. rewrite G. cbn [bind]. rewrite IH by (intros q I; apply H; right; exact I). f_equal. change (cost (weight freq) (p :: h)) with (weight freq (fst p) * Z.of_nat (length (snd p)) + cost (weight freq) h). replace (weight freq (fst p)) with w by (unfold weight; rewrite G; reflexivity). lia. Qed.
Lemma prefix_free_pairs syms c : NoDup syms -> prefix_free syms c -> ForallOrdPairs incomparable (map c syms).
Proof. intros Nd Pf. assert (G : forall l, NoDup l -> incl l syms -> ForallOrdPairs incomparable (map c l)); [|apply G; [exact Nd|apply incl_refl]].
  induction l as [|s l IH]; intros N I; cbn [map]; [constructor|]. apply NoDup_cons_iff in N. destruct N as [N1 N2]. constructor; [|apply IH; [exact N2|intros x Hx; apply I; right; exact Hx]].
  apply Forall_forall. intros d Id. apply in_map_iff in Id. destruct Id as (u & <- & Iu). split; intros H; apply Pf in H; try (apply I; (left; reflexivity) || (right; exact Iu)); subst; contradiction. Qed.
Theorem C58_optimal : forall freq, NoDup (dkeys freq) -> freq <> [] -> (forall s w, dget freq s = Some w -> 0 <= w) ->
  exists ps n, encode freq = Ok ps /\ huffman_size freq None = Ok n /\
    (* the reported size is that of the text under the code ... *)
    n = total_length (dkeys freq) (weight freq) (code_in ps) /\
    (* ... and no prefix code is shorter *)
    forall c, prefix_free (dkeys freq) c -> n <= total_length (dkeys freq) (weight freq) c.
Proof. intros freq Nd Ne Nn. destruct (encode_tree freq Nd Ne) as (ps & t & h & E & Pt & Ps & Mg & Ct). assert (Np : NoDup (dkeys ps)) by (eapply Permutation_NoDup; [exact Ps|exact Nd]).
  exists ps, h. split; [exact E|]. split; [|split].
  - unfold huffman_size. rewrite E. cbn [bind]. rewrite size_fold; [f_equal; lia|]. intros p I. eapply Permutation_in; [apply Permutation_sym, Ps|]. apply in_map, I.
  - rewrite (total_perm _ _ _ _ Ps). rewrite <- Ct. symmetry. apply total_cost; [exact Np|apply incl_refl].
  - intros c Pf. set (m := fold_right Nat.max 0%nat (map (fun s => length (c s)) (dkeys freq))).
    assert (Hm : forall s, In s (dkeys freq) -> (length (c s) <= m)%nat). { unfold m. clear. induction (dkeys freq) as [|s l IH]; intros u []; cbn [map fold_right]; [subst; lia|]. specialize (IH u H). lia. }
    assert (D : total_length (dkeys freq) (weight freq) c = dot (map (fun s => (weight freq s, len (c s))) (dkeys freq))). { clear. unfold total_length, dot, len. induction (dkeys freq) as [|s l IH]; cbn [map fold_right fst snd]; [reflexivity|]. rewrite IH. reflexivity. }
    rewrite D. apply (huffman_optimal _ _ Mg) with (m := Z.of_nat m).
    + intros w I. apply in_map_iff in I. destruct I as (s & <- & I). apply dget_some_in in I. destruct I as (w & G). unfold weight. rewrite G. eapply Nn, G.
    + rewrite map_map. cbn [fst]. reflexivity.
    + intros l I. rewrite map_map in I. cbn [snd] in I. apply in_map_iff in I. destruct I as (s & <- & I). specialize (Hm s I). unfold len. lia.
    + rewrite map_map. cbn [snd]. rewrite <- (map_map c len). apply kraft_le; [apply prefix_free_pairs; assumption|]. intros d I. apply in_map_iff in I. destruct I as (s & <- & I). apply Hm, I. Qed.
Print Assumptions C58_optimal.
Example C58_example : huffman_size [(0, 5); (1, 2); (2, 1); (3, 1)] None = Ok 15 /\ total_length [0; 1; 2; 3] (weight [(0, 5); (1, 2); (2, 1); (3, 1)]) (fun s => if s =? 0 then [false; false] else if s =? 1 then [false; true] else if s =? 2 then [true; false] else [true; true]) = 18.
Proof. vm_compute. auto. Qed.

(** C76: a more frequent symbol never gets a longer code word. *)
Lemma total_update syms w c s d : NoDup syms -> In s syms -> total_length syms w (fun x => if x =? s then d else c x) = total_length syms w c + w s * (Z.of_nat (length d) - Z.of_nat (length (c s))).
Proof. unfold total_length. induction syms as [|x l IH]; intros Nd I; [destruct I|]. apply NoDup_cons_iff in Nd. destruct Nd as [N1 N2]. cbn [fold_right]. destruct (Z.eqb_spec x s) as [->|n].
  - assert (G : forall l', ~ In s l' -> fold_right (fun y n => w y * Z.of_nat (length (if y =? s then d else c y)) + n) 0 l' = fold_right (fun y n => w y * Z.of_nat (length (c y)) + n) 0 l').
    { induction l' as [|y l' IH']; intros H; [reflexivity|]. cbn [fold_right]. rewrite IH' by (intro; apply H; right; assumption). replace (y =? s) with false; [reflexivity|]. symmetry. apply Z.eqb_neq. intros ->. apply H. left. reflexivity. }
    rewrite (G l N1). ring.
  - destruct I as [I|I]; [congruence|]. rewrite (IH N2 I). ring. Qed.
Theorem C76_monotone : forall freq ps s t ws wt, NoDup (dkeys freq) -> (forall s w, dget freq s = Some w -> 0 <= w) -> encode freq = Ok ps ->
  dget freq s = Some ws -> dget freq t = Some wt -> ws < wt -> (length (code_in ps t) <= length (code_in ps s))%nat.
Proof. intros freq ps s t ws wt Nd Nn E Gs Gt Lt. assert (Ne : freq <> []) by (intros ->; discriminate). destruct (C58_optimal freq Nd Ne Nn) as (ps' & n & E' & _ & En & Op). assert (ps' = ps) as -> by congruence.
  pose proof (C57_prefix_code freq Nd) as P. rewrite E in P. destruct P as (_ & _ & Pf & _). assert (Is : In s (dkeys freq)) by (apply dget_some_in; eauto). assert (It : In t (dkeys freq)) by (apply dget_some_in; eauto).
  set (c := code_in ps) in *. set (c' := fun x => if x =? s then c t else (fun y => if y =? t then c s else c y) x).
  assert (Nst : s <> t) by (intros ->; assert (ws = wt) by congruence; lia).
  assert (Pf' : prefix_free (dkeys freq) c'). { intros x y Ix Iy H. unfold c' in H. destruct (Z.eqb_spec x s), (Z.eqb_spec y s), (Z.eqb_spec x t), (Z.eqb_spec y t); first [congruence | apply Pf in H; [congruence|assumption|assumption]]. }
  specialize (Op c' Pf'). unfold c' in Op. rewrite (total_update _ _ _ s) in Op by assumption. rewrite (total_update _ _ _ t) in Op by assumption. replace (s =? t) with false in Op by lia. replace (weight freq s) with ws in Op by (unfold weight; rewrite Gs; reflexivity). replace (weight freq t) with wt in Op by (unfold weight; rewrite Gt; reflexivity). rewrite En in Op. assert (X : 0 <= (wt - ws) * (Z.of_nat (length (c s)) - Z.of_nat (length (c t)))) by lia. nia. Qed.
Print Assumptions C76_monotone.
Example C76_example : let ps := match encode [(0, 1); (1, 1); (2, 7)] with Ok ps => ps | Err _ => [] end in (length (code_in ps 2), length (code_in ps 0)) = (1%nat, 2%nat).
Proof. vm_compute. reflexivity. Qed.

(** ** C59: part frequencies *)
Lemma counter_spec l : NoDup (dkeys (counter l)) /\ forall k, dget (counter l) k = if occurrences k l =? 0 then None else Some (occurrences k l).
Proof. unfold counter. set (f := fun (d : dict Z) k => dset d k (match dget d k with Some n => n | None => 0 end + 1)).
  assert (G : forall l d (g : Z -> Z), NoDup (dkeys d) -> (forall k, 0 <= g k) -> (forall k, dget d k = if g k =? 0 then None else Some (g k)) -> NoDup (dkeys (fold_left f l d)) /\ forall k, dget (fold_left f l d) k = if g k + occurrences k l =? 0 then None else Some (g k + occurrences k l)).
  { clear. induction l as [|x l IH]; intros d g Nd P T; cbn [fold_left].
    - split; [exact Nd|]. intros k. unfold occurrences. cbn [count_occ]. rewrite Z.add_0_r. apply T.
    - destruct (IH (f d x) (fun k => g k + if k =? x then 1 else 0)) as [A B].
      + apply dset_nodup, Nd.
      + intros k. specialize (P k). destruct (k =? x); lia.
      + intros k. unfold f. rewrite dget_dset. destruct (Z.eqb_spec k x) as [->|n]; [|rewrite Z.add_0_r; apply T]. rewrite (T x). specialize (P x). destruct (g x =? 0) eqn:E; [assert (g x = 0) as -> by lia; reflexivity|]. replace (g x + 1 =? 0) with false by lia. reflexivity.
      + split; [exact A|]. intros k. rewrite B. unfold occurrences. cbn [count_occ]. destruct (Z.eq_dec x k) as [->|n]; [rewrite Z.eqb_refl|replace (k =? x) with false by lia]; [|rewrite Z.add_0_r; reflexivity]. replace (g k + 1 + Z.of_nat (count_occ Z.eq_dec l k)) with (g k + Z.of_nat (S (count_occ Z.eq_dec l k))) by lia. reflexivity. }
  destruct (G l [] (fun _ => 0)) as [A B]; [constructor|lia|reflexivity|]. split; [exact A|]. intros k. rewrite B. reflexivity. Qed.
Definition tallied (d : dict Z) (g : Z -> Z) : Prop := forall k, dget d k = if g k =? 0 then None else Some (g k).
Definition listed (d : dict (list Z)) (g : Z -> list Z) : Prop := forall k, dget d k = match g k with [] => None | l => Some l end.
Definition add_once (p : Z) (l : list Z) : list Z := if existsb (Z.eqb p) l then l else l ++ [p].
Lemma item_step p f w g L k r : (forall j, 0 <= g j) -> 0 < r -> tallied f g -> listed w L ->
  let '(f', w') := freq_item p (f, w) (k, r) in tallied f' (fun j => if j =? k then g j + r else g j) /\ listed w' (fun j => if j =? k then add_once p (L j) else L j).
Proof. intros P R T Li. unfold freq_item. split; intros j.
  - rewrite dget_dset. destruct (Z.eqb_spec j k) as [->|n].
    + pose proof (T k) as Tk. specialize (P k). destruct (g k =? 0) eqn:E.
      * rewrite Tk. rewrite dget_dset_same. replace (g k + r =? 0) with false by lia. f_equal. lia.
      * rewrite Tk. rewrite Tk. replace (g k + r =? 0) with false by lia. reflexivity.
    + rewrite <- T. destruct (dget f k); [reflexivity|]. apply dget_dset_other, n.
  - pose proof (Li k) as Lk. destruct (dget w k) as [ps|] eqn:E.
    + destruct (L k) as [|x l] eqn:El; [discriminate|]. assert (ps = x :: l) as -> by congruence. destruct (Z.eqb_spec j k) as [->|n].
      * rewrite El. unfold add_once. destruct (existsb (Z.eqb p) (x :: l)) eqn:Ex; [exact E|]. rewrite dget_dset_same. reflexivity.
      * destruct (existsb (Z.eqb p) (x :: l)); [apply Li|]. rewrite dget_dset_other by exact n. apply Li.
    + destruct (L k) eqn:El; [|discriminate]. rewrite dget_dset. destruct (Z.eqb_spec j k) as [->|n]; [|apply Li]. rewrite El. reflexivity. Qed.
Lemma items_step p c : NoDup (dkeys c) -> (forall k r, In (k, r) c -> 0 < r) -> forall f w g L, (forall j, 0 <= g j) -> tallied f g -> listed w L ->
  let '(f', w') := fold_left (freq_item p) c (f, w) in tallied f' (fun j => match dget c j with Some r => g j + r | None => g j end) /\ listed w' (fun j => match dget c j with Some _ => add_once p (L j) | None => L j end).
Proof. induction c as [|[k r] c IH]; intros Nd R f w g L P T Li; cbn [fold_left].
  - split; [exact T|exact Li].
  - pose proof (item_step p f w g L k r P (R k r ltac:(left; reflexivity)) T Li) as S. destruct (freq_item p (f, w) (k, r)) as [f1 w1]. destruct S as [T1 L1]. cbn [dkeys map fst] in Nd. apply NoDup_cons_iff in Nd. destruct Nd as [N1 N2]. assert (Gk : dget c k = None) by (apply dget_none, N1).
    specialize (IH N2 (fun k r I => R k r (or_intror I)) f1 w1 (fun j => if j =? k then g j + r else g j) (fun j => if j =? k then add_once p (L j) else L j) ltac:(intros j; specialize (P j); specialize (R k r ltac:(left; reflexivity)); cbn beta; destruct (j =? k); lia) T1 L1). destruct (fold_left (freq_item p) c (f1, w1)) as [f2 w2]. destruct IH as [T2 L2]. split; intros j; [rewrite T2|rewrite L2]; cbn [dget fst]; destruct (Z.eqb_spec j k) as [->|n]; try rewrite Gk; reflexivity. Qed.
Lemma firsts_snoc l p : firsts (l ++ [p]) = add_once p (firsts l).
Proof. assert (In_firsts : forall l x, In x (firsts l) <-> In x l).
  { induction l0 as [|y l0 IH]; intros x; [reflexivity|]. cbn [firsts]. cbn [In]. rewrite filter_In, IH. destruct (Z.eq_dec y x) as [->|n]; [tauto|]. replace (negb (x =? y)) with true by lia. tauto. }
  induction l as [|y l IH]; [reflexivity|]. cbn [app firsts]. rewrite IH. unfold add_once. cbn [existsb]. destruct (Z.eqb_spec p y) as [->|n]; cbn [orb].
  - destruct (existsb (Z.eqb y) (firsts l)); [reflexivity|]. rewrite filter_app. cbn [filter]. rewrite Z.eqb_refl. cbn [negb]. rewrite app_nil_r. reflexivity.
  - assert (X : existsb (Z.eqb p) (filter (fun q => negb (q =? y)) (firsts l)) = existsb (Z.eqb p) (firsts l)). { apply eq_true_iff_eq. rewrite !existsb_exists. split; intros (x & I & E); exists x; split; auto; [apply filter_In in I; apply I|]. apply filter_In. split; [exact I|]. lia. }
    rewrite X. destruct (existsb (Z.eqb p) (firsts l)); [reflexivity|]. rewrite filter_app. cbn [filter]. replace (negb (p =? y)) with true by lia. reflexivity. Qed.
Definition contains (k : Z) (l : list Z) : bool := existsb (Z.eqb k) l.
Theorem C59_exact : forall program x fields, (forall p, In p program -> x p = Ok (fields p)) ->
  exists freq with_, freq_info program x = Ok (freq, with_) /\
    (forall k, dget freq k = let n := occurrences k (flat_map fields program) in if n =? 0 then None else Some n) /\
    (forall k, dget with_ k = match firsts (filter (fun p => contains k (fields p)) program) with [] => None | l => Some l end).
Proof. intros program x fields. unfold freq_info. induction program as [|p program IH] using rev_ind; intros H.
  - exists [], []. split; [reflexivity|]. split; reflexivity.
  - destruct IH as (freq & with_ & E & T & L). { intros q I. apply H, in_or_app. left. exact I. }
    rewrite foldM_app, E. cbn [bind foldM]. rewrite H by (apply in_or_app; right; left; reflexivity). cbn [bind]. destruct (counter_spec (fields p)) as [Nd C].
    assert (R : forall k r, In (k, r) (counter (fields p)) -> 0 < r). { intros k r I. apply (dget_nodup_in _ _ _ Nd) in I. rewrite C in I. unfold occurrences in I. destruct (Z.of_nat (count_occ Z.eq_dec (fields p) k) =? 0) eqn:Z0; [discriminate|]. injection I as <-. lia. }
    pose proof (items_step p (counter (fields p)) Nd R freq with_ (fun k => occurrences k (flat_map fields program)) (fun k => firsts (filter (fun p => contains k (fields p)) program)) ltac:(intros; unfold occurrences; lia) T L) as S.
    destruct (fold_left (freq_item p) (counter (fields p)) (freq, with_)) as [f w]. destruct S as [Tf Lw]. exists f, w. split; [reflexivity|]. split; intros k.
    + rewrite Tf, C. rewrite flat_map_app. cbn [flat_map]. rewrite app_nil_r. unfold occurrences. rewrite count_occ_app, Nat2Z.inj_add. destruct (Z.of_nat (count_occ Z.eq_dec (fields p) k) =? 0) eqn:Z0; [|reflexivity]. replace (Z.of_nat (count_occ Z.eq_dec (fields p) k)) with 0 by lia. rewrite Z.add_0_r. reflexivity.
    + rewrite Lw, C. rewrite filter_app. cbn [filter]. assert (Ec : contains k (fields p) = negb (occurrences k (fields p) =? 0)). { unfold contains, occurrences. apply eq_true_iff_eq. rewrite existsb_exists. split.
        - intros (y & I & Ey). apply Z.eqb_eq in Ey. subst y. apply (count_occ_In Z.eq_dec) in I. lia.
        - intros Hn. exists k. split; [|apply Z.eqb_refl]. apply (count_occ_In Z.eq_dec). lia. }
      rewrite Ec. destruct (occurrences k (fields p) =? 0); cbn [negb]; [rewrite app_nil_r; reflexivity|]. rewrite firsts_snoc. reflexivity. Qed.
Print Assumptions C59_exact.
(** A field accessor that raises makes the count raise the same exception. *)
Theorem C59_raises : forall before p after x fields e, (forall q, In q before -> x q = Ok (fields q)) -> x p = Err e -> freq_info (before ++ p :: after) x = Err e.
Proof. intros before p after x fields e H Hp. destruct (C59_exact before x fields H) as (f & w & E & _). unfold freq_info in *. rewrite foldM_app, E. cbn [bind foldM]. rewrite Hp. reflexivity. Qed.
Print Assumptions C59_raises.
Example C59_example : freq_info [10; 11; 12] (fun p => Ok (if p =? 10 then [0; 1; 0] else if p =? 11 then [3] else [1; 3])) =
  Ok ([(0, 2); (1, 2); (3, 2)], [(0, [10]); (1, [10; 12]); (3, [11; 12])]).
Proof. vm_compute. reflexivity. Qed.
