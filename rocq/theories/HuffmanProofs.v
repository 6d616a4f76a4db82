(** Proofs about Huffman codes. *)
From Verif Require Import ListLemmas HuffmanModel HuffmanSpec.
From Coq Require Import ZifyBool ZifyNat Permutation Sorted.

(** ** Popping *)
Lemma heappop_ok heap : heap <> [] -> exists m r, heappop heap = Ok (m, r) /\ Permutation heap (m :: r).
Proof. induction heap as [|x h IH]; [congruence|]. intros _. cbn [heappop]. destruct h as [|y h].
  - cbn [heappop]. eauto.
  - destruct IH as (m & r & E & P); [discriminate|]. rewrite E. destruct (item_ltb m x); eexists; eexists; (split; [reflexivity|]); [|reflexivity]. rewrite P. apply perm_swap. Qed.
(** The popped weight is least. *)
Lemma heappop_min heap m r : heappop heap = Ok (m, r) -> forall y, In y heap -> fst m <= fst y.
Proof. revert m r. induction heap as [|x h IH]; intros m r E y I; [destruct I|]. cbn [heappop] in E. destruct (heappop h) as [[m0 r0]|e] eqn:Eh.
  - specialize (IH m0 r0 eq_refl). destruct (item_ltb m0 x) eqn:C.
    + assert (m0 = m) as -> by congruence. destruct I as [<-|I]; [|apply IH, I]. unfold item_ltb in C. lia.
    + assert (x = m) as -> by congruence. destruct I as [<-|I]; [lia|]. specialize (IH y I). unfold item_ltb in C. lia.
  - destruct h; [|destruct (heappop_ok (i :: h)) as (? & ? & X & _); [discriminate|rewrite X in Eh; discriminate]]. destruct I as [<-|[]]. assert (x = m) as -> by congruence. lia. Qed.

(** ** The code of an entry *)
(** Binary trees with a symbol in every leaf; their leaves with the path to them. *)
Inductive tree := Leaf (s : Z) | Node (l r : tree).
Fixpoint leaves (t : tree) : list (Z * code) :=
  match t with
  | Leaf s => [(s, [])]
  | Node l r => map (fun p : Z * code => (fst p, false :: snd p)) (leaves l) ++ map (fun p : Z * code => (fst p, true :: snd p)) (leaves r)
  end.
Definition symbols_of (ps : list (Z * code)) := map fst ps.
Definition weigh (w : Z -> Z) (ps : list (Z * code)) : Z := fold_right (fun p n => w (fst p) + n) 0 ps.
Definition cost (w : Z -> Z) (ps : list (Z * code)) : Z := fold_right (fun p n => w (fst p) * Z.of_nat (length (snd p)) + n) 0 ps.
Lemma weigh_app w a b : weigh w (a ++ b) = weigh w a + weigh w b.
Proof. unfold weigh. induction a as [|p a IH]; cbn [app fold_right]; [lia|]. rewrite IH. lia. Qed.
Lemma cost_app w a b : cost w (a ++ b) = cost w a + cost w b.
Proof. unfold cost. induction a as [|p a IH]; cbn [app fold_right]; [lia|]. rewrite IH. lia. Qed.
Lemma weigh_map w b ps : weigh w (map (fun p : Z * code => (fst p, b :: snd p)) ps) = weigh w ps.
Proof. unfold weigh. induction ps as [|p ps IH]; cbn [map fold_right fst]; [reflexivity|]. rewrite IH. reflexivity. Qed.
Lemma cost_map w b ps : cost w (map (fun p : Z * code => (fst p, b :: snd p)) ps) = cost w ps + weigh w ps.
Proof. assert (C : forall p ps, cost w (p :: ps) = w (fst p) * Z.of_nat (length (snd p)) + cost w ps) by reflexivity. assert (W : forall p ps, weigh w (p :: ps) = w (fst p) + weigh w ps) by reflexivity. induction ps as [|p ps IH]; [reflexivity|]. cbn [map]. rewrite !C, W, IH. cbn [fst snd length]. rewrite Nat2Z.inj_succ. unfold Z.succ. ring. Qed.
Lemma symbols_map b ps : symbols_of (map (fun p : Z * code => (fst p, b :: snd p)) ps) = symbols_of ps.
Proof. unfold symbols_of. rewrite map_map. reflexivity. Qed.

(** ** The weights merged by the loop *)
Inductive merges : list Z -> Z -> Prop :=
| merges_one w : merges [w] 0
| merges_two ws a b rest h : Permutation ws (a :: b :: rest) -> a <= b -> (forall x, In x rest -> b <= x) ->
    merges (a + b :: rest) h -> merges ws (a + b + h).
Definition costs (w : Z -> Z) (heap : list item) : Z := fold_right (fun i n => cost w (snd i) + n) 0 heap.
Lemma costs_perm w a b : Permutation a b -> costs w a = costs w b.
Proof. unfold costs. induction 1; cbn [fold_right]; lia. Qed.
Record heap_inv (w : Z -> Z) (heap : list item) : Prop := {
  hi_trees : Forall (fun i => exists t, snd i = leaves t) heap;
  hi_weights : Forall (fun i => fst i = weigh w (snd i)) heap }.
Lemma heap_inv_perm w a b : Permutation a b -> heap_inv w a -> heap_inv w b.
Proof. intros P [A B]. split; eapply Permutation_Forall; eassumption. Qed.
Lemma encode_loop_ok w fuel : forall heap, heap <> [] -> (length heap <= fuel)%nat -> heap_inv w heap ->
  exists top, encode_loop fuel heap = Ok [top] /\ heap_inv w [top] /\ Permutation (flat_map (fun i => symbols_of (snd i)) heap) (symbols_of (snd top)) /\
    exists h, merges (map fst heap) h /\ cost w (snd top) = costs w heap + h.
Proof. induction fuel as [|fuel IH]; intros heap Ne L Inv.
  - destruct heap; [congruence|cbn in L; lia].
  - destruct heap as [|x heap]; [congruence|]. destruct heap as [|y heap].
    + exists x. cbn [encode_loop]. split; [reflexivity|]. split; [exact Inv|]. split; [cbn [flat_map]; rewrite app_nil_r; reflexivity|]. exists 0. split; [constructor|]. unfold costs. cbn [fold_right]. lia.
    + cbn [encode_loop]. destruct (heappop_ok (x :: y :: heap)) as (lo & h1 & E1 & P1); [discriminate|]. rewrite E1. cbn [bind].
      assert (L1 : length (x :: y :: heap) = S (length h1)) by (rewrite (Permutation_length P1); reflexivity). destruct h1 as [|z h1]; [cbn [length] in L1; lia|].
      destruct (heappop_ok (z :: h1)) as (hi & h2 & E2 & P2); [discriminate|]. rewrite E2. cbn [bind]. assert (L2 : length (z :: h1) = S (length h2)) by (rewrite (Permutation_length P2); reflexivity).
      assert (P : Permutation (x :: y :: heap) (lo :: hi :: h2)) by (rewrite P1, P2; reflexivity). pose proof (heappop_min _ _ _ E1) as M1. pose proof (heappop_min _ _ _ E2) as M2.
      set (new := (fst lo + fst hi, _)). apply (heap_inv_perm _ _ _ P) in Inv. destruct Inv as [T W]. inversion T as [|? ? (tl & Tl) T1]; subst. inversion T1 as [|? ? (tr & Tr) T2]; subst. inversion W as [|? ? Wl W1]; subst. inversion W1 as [|? ? Wr W2]; subst.
      destruct (IH (new :: h2)) as (top & E & Inv & Ps & h & Mg & Ct).
      * discriminate.
      * cbn [length] in *. lia.
      * split; constructor; try assumption; unfold new; cbn [fst snd]; [exists (Node tl tr); cbn [leaves]; rewrite Tl, Tr; reflexivity|]. rewrite weigh_app, !weigh_map. lia.
      * exists top. split; [exact E|]. split; [exact Inv|]. split.
        -- rewrite <- Ps. rewrite (Permutation_flat_map _ P). cbn [flat_map]. unfold new. cbn [snd]. unfold symbols_of at 4. rewrite map_app. fold (symbols_of (map (fun p : Z * code => (fst p, false :: snd p)) (snd lo))). fold (symbols_of (map (fun p : Z * code => (fst p, true :: snd p)) (snd hi))). rewrite !symbols_map. rewrite app_assoc. reflexivity.
        -- exists (fst lo + fst hi + h). split.
           ++ apply (merges_two _ (fst lo) (fst hi) (map fst h2)); [apply (Permutation_map fst) in P; exact P| | |exact Mg].
              ** apply M1. apply Permutation_sym in P. eapply Permutation_in; [exact P|]. right. left. reflexivity.
              ** intros v Iv. apply in_map_iff in Iv. destruct Iv as (i & <- & Ii). apply M2. apply Permutation_sym in P2. eapply Permutation_in; [exact P2|]. right. exact Ii.
           ++ rewrite Ct. rewrite (costs_perm w _ _ P). unfold costs. cbn [fold_right]. unfold new. cbn [snd]. rewrite cost_app, !cost_map. rewrite Wl, Wr. lia. Qed.

(** ** Sorting the result *)
Lemma insert_pair_perm p l : Permutation (insert_pair p l) (p :: l).
Proof. induction l as [|q l IH]; cbn [insert_pair]; [reflexivity|]. destruct (pair_before p q); [reflexivity|]. rewrite IH. apply perm_swap. Qed.
Lemma sort_pairs_perm l : Permutation (sort_pairs l) l.
Proof. induction l as [|p l IH]; cbn [sort_pairs fold_right]; [reflexivity|]. rewrite insert_pair_perm. apply perm_skip, IH. Qed.

(** ** Properties of trees *)
Lemma leaves_nonempty t : leaves t <> [].
Proof. destruct t; cbn [leaves]; [discriminate|]. intros H. apply app_eq_nil in H. destruct H as [H _]. apply map_eq_nil in H. revert H. induction t1; cbn [leaves]; [discriminate|]. intros H. apply app_eq_nil in H. destruct H as [H _]. apply map_eq_nil in H. auto. Qed.
Lemma leaves_prefix t : forall s c s' c', In (s, c) (leaves t) -> In (s', c') (leaves t) -> prefix c c' -> c = c' /\ (NoDup (symbols_of (leaves t)) -> s = s').
Proof. induction t as [x|l IHl r IHr]; intros s c s' c' I I' (e & E); cbn [leaves] in I, I'.
  - destruct I as [I|[]], I' as [I'|[]]. split; congruence.
  - apply in_app_or in I, I'. assert (D : forall a b, map fst (map (fun p : Z * code => (fst p, b :: snd p)) a) = map fst a) by (intros; rewrite map_map; reflexivity).
    destruct I as [I|I], I' as [I'|I']; apply in_map_iff in I, I'; destruct I as ([s0 c0] & X & I), I' as ([s1 c1] & X' & I'); cbn [fst snd] in X, X'; injection X as <- <-; injection X' as <- <-; cbn [app] in E; try discriminate; injection E as E.
    + destruct (IHl s0 c0 s1 c1 I I') as [Ec Es]; [exists e; exact E|]. split; [congruence|]. intros Nd. apply Es. unfold symbols_of in Nd. cbn [leaves] in Nd. rewrite map_app, !D in Nd. apply NoDup_app_elim in Nd. apply Nd.
    + destruct (IHr s0 c0 s1 c1 I I') as [Ec Es]; [exists e; exact E|]. split; [congruence|]. intros Nd. apply Es. unfold symbols_of in Nd. cbn [leaves] in Nd. rewrite map_app, !D in Nd. apply NoDup_app_elim in Nd. apply Nd. Qed.
Definition ksum (m : Z) (ps : list (Z * code)) : Z := fold_right (fun p n => 2 ^ (m - Z.of_nat (length (snd p))) + n) 0 ps.
Lemma ksum_app m a b : ksum m (a ++ b) = ksum m a + ksum m b.
Proof. unfold ksum. induction a as [|p a IH]; cbn [app fold_right]; [lia|]. rewrite IH. lia. Qed.
Lemma ksum_map m b ps : ksum m (map (fun p : Z * code => (fst p, b :: snd p)) ps) = ksum (m - 1) ps.
Proof. assert (C : forall m p ps, ksum m (p :: ps) = 2 ^ (m - Z.of_nat (length (snd p))) + ksum m ps) by reflexivity. induction ps as [|p ps IH]; [reflexivity|]. cbn [map]. rewrite !C, IH. cbn [snd length]. replace (m - Z.of_nat (S (length (snd p)))) with (m - 1 - Z.of_nat (length (snd p))) by lia. reflexivity. Qed.
Lemma ksum_leaves t : forall m, (forall p, In p (leaves t) -> Z.of_nat (length (snd p)) <= m) -> ksum m (leaves t) = 2 ^ m.
Proof. induction t as [x|l IHl r IHr]; intros m H; cbn [leaves].
  - unfold ksum. cbn [fold_right snd length]. rewrite Z.sub_0_r. lia.
  - rewrite ksum_app, !ksum_map. cbn [leaves] in H.
    assert (Hl : forall p, In p (leaves l) -> Z.of_nat (length (snd p)) <= m - 1). { intros p I. specialize (H (fst p, false :: snd p)). cbn [snd length] in H. assert (X : Z.of_nat (S (length (snd p))) <= m) by (apply H, in_or_app; left; apply in_map_iff; exists p; auto). lia. }
    assert (Hr : forall p, In p (leaves r) -> Z.of_nat (length (snd p)) <= m - 1). { intros p I. specialize (H (fst p, true :: snd p)). cbn [snd length] in H. assert (X : Z.of_nat (S (length (snd p))) <= m) by (apply H, in_or_app; right; apply in_map_iff; exists p; auto). lia. }
    rewrite (IHl _ Hl), (IHr _ Hr). pose proof (leaves_nonempty l) as N. destruct (leaves l) as [|p ps]; [congruence|]. specialize (Hl p ltac:(left; reflexivity)). replace m with (Z.succ (m - 1)) at 3 by lia. rewrite Z.pow_succ_r by lia. lia. Qed.

(** ** Kraft's inequality *)
Definition lsum (m : Z) (ls : list Z) : Z := fold_right (fun l n => 2 ^ (m - l) + n) 0 ls.
Lemma lsum_perm m a b : Permutation a b -> lsum m a = lsum m b.
Proof. unfold lsum. induction 1; cbn [fold_right]; lia. Qed.
Lemma lsum_app m a b : lsum m (a ++ b) = lsum m a + lsum m b.
Proof. unfold lsum. induction a as [|p a IH]; cbn [app fold_right]; [lia|]. rewrite IH. lia. Qed.
Definition incomparable (c d : list bool) : Prop := ~ prefix c d /\ ~ prefix d c.
Definition len (c : list bool) : Z := Z.of_nat (length c).
Definition starting (b : bool) (cs : list (list bool)) : list (list bool) :=
  flat_map (fun c => match c with x :: c' => if Bool.eqb x b then [c'] else [] | [] => [] end) cs.
Lemma starting_in b cs d : In d (starting b cs) <-> In (b :: d) cs.
Proof. unfold starting. rewrite in_flat_map. split.
  - intros (c & I & H). destruct c as [|x c]; [destruct H|]. destruct (Bool.eqb_spec x b) as [->|]; [|destruct H]. destruct H as [<-|[]]. exact I.
  - intros I. exists (b :: d). split; [exact I|]. rewrite Bool.eqb_reflx. left. reflexivity. Qed.
Lemma starting_pairs b cs : ForallOrdPairs incomparable cs -> ForallOrdPairs incomparable (starting b cs).
Proof. induction 1 as [|c cs F O IH]; [constructor|]. unfold starting. cbn [flat_map]. fold (starting b cs). destruct c as [|x c]; [exact IH|]. destruct (Bool.eqb_spec x b) as [->|]; [|exact IH]. cbn [app]. constructor; [|exact IH].
  apply Forall_forall. intros d I. apply starting_in in I. rewrite Forall_forall in F. destruct (F _ I) as [A B]. split; intros (e & E); [apply A|apply B]; exists e; rewrite E; reflexivity. Qed.
Lemma lsum_split m cs : (forall c, In c cs -> c <> []) -> lsum m (map len cs) = lsum (m - 1) (map len (starting false cs)) + lsum (m - 1) (map len (starting true cs)).
Proof. assert (C : forall m l ls, lsum m (l :: ls) = 2 ^ (m - l) + lsum m ls) by reflexivity. assert (D : forall b c, len (b :: c) = len c + 1) by (intros; unfold len; cbn [length]; lia). induction cs as [|c cs IH]; intros N; [reflexivity|]. unfold starting. cbn [flat_map map]. fold (starting false cs) (starting true cs). rewrite !map_app, !lsum_app, C. rewrite IH by (intros d I; apply N; right; exact I).
  destruct c as [|[|] c]; [exfalso; apply (N []); [left|]; reflexivity| |]; cbn [Bool.eqb map app]; rewrite C; change (lsum (m - 1) []) with 0; rewrite D; replace (m - (len c + 1)) with (m - 1 - len c) by lia; lia. Qed.
Lemma kraft_le m : forall cs, ForallOrdPairs incomparable cs -> (forall c, In c cs -> (length c <= m)%nat) -> lsum (Z.of_nat m) (map len cs) <= 2 ^ Z.of_nat m.
Proof. induction m as [|m IH]; intros cs O L.
  - destruct cs as [|c [|d cs]]; [cbn; lia| |].
    + pose proof (L c ltac:(left; reflexivity)). destruct c; [|cbn in H; lia]. cbn. lia.
    + exfalso. pose proof (L c ltac:(left; reflexivity)). pose proof (L d ltac:(right; left; reflexivity)). destruct c; [|cbn in H; lia]. inversion O as [|? ? F _]; subst. inversion F as [|? ? [A _] _]; subst. apply A. exists d. reflexivity.
  - destruct (in_dec (list_eq_dec Bool.bool_dec) [] cs) as [I|N].
    + (* the empty word is alone *)
      assert (cs = [[]]) as ->. { destruct O as [|c cs F O]; [destruct I|]. destruct I as [I|I]; [subst c|].
        - destruct cs as [|d cs]; [reflexivity|]. inversion F as [|? ? [A _] _]; subst. exfalso. apply A. exists d. reflexivity.
        - exfalso. rewrite Forall_forall in F. destruct (F _ I) as [_ B]. apply B. exists c. reflexivity. }
      cbn [map lsum fold_right]. change (len []) with 0. rewrite Z.sub_0_r. lia.
    + rewrite lsum_split by (intros c I ->; exact (N I)). replace (Z.of_nat (S m) - 1) with (Z.of_nat m) by lia.
      assert (B : forall b, lsum (Z.of_nat m) (map len (starting b cs)) <= 2 ^ Z.of_nat m). { intros b. apply IH; [apply starting_pairs, O|]. intros c I. apply starting_in in I. specialize (L _ I). cbn [length] in L. lia. }
      pose proof (B false). pose proof (B true). replace (Z.of_nat (S m)) with (Z.succ (Z.of_nat m)) by lia. rewrite Z.pow_succ_r by lia. lia. Qed.

(** ** Optimality *)
Definition dot (ps : list (Z * Z)) : Z := fold_right (fun p n => fst p * snd p + n) 0 ps.
Lemma dot_perm a b : Permutation a b -> dot a = dot b.
Proof. unfold dot. induction 1; cbn [fold_right]; lia. Qed.
(** Give the least weight the greatest length. *)
Lemma exchange w ps : (forall p, In p ps -> w <= fst p) -> forall a, exists a' ps', map fst ps' = map fst ps /\ Permutation (a :: map snd ps) (a' :: map snd ps') /\
  a <= a' /\ (forall l, In l (map snd ps') -> l <= a') /\ w * a' + dot ps' <= w * a + dot ps.
Proof. induction ps as [|[v l] ps IH]; intros H a.
  - exists a, []. cbn. repeat split; auto; lia || (intros ? []).
  - destruct (IH (fun p I => H p (or_intror I)) a) as (a' & ps' & Ef & P & La & G & C). specialize (H (v, l) ltac:(left; reflexivity)). cbn [fst] in H.
    destruct (Z_le_gt_dec l a').
    + exists a', ((v, l) :: ps'). cbn [map fst snd]. split; [congruence|]. split; [rewrite perm_swap, P; apply perm_swap|]. split; [exact La|]. split; [intros x [<-|I]; [assumption|apply G, I]|]. cbn [dot fold_right fst snd]. fold (dot ps) (dot ps'). lia.
    + exists l, ((v, a') :: ps'). cbn [map fst snd]. split; [congruence|]. split; [rewrite perm_swap, P; reflexivity|]. split; [lia|]. split; [intros x [<-|I]; [lia|specialize (G x I); lia]|]. cbn [dot fold_right fst snd]. fold (dot ps) (dot ps'). nia. Qed.
Lemma lsum_nonneg m ls : 0 <= lsum m ls.
Proof. unfold lsum. induction ls as [|l ls IH]; cbn [fold_right]; [lia|]. pose proof (Z.pow_nonneg 2 (m - l)). lia. Qed.
Lemma lsum_divides m b ls : (forall l, In l ls -> l <= b) -> b <= m -> (2 ^ (m - b) | lsum m ls).
Proof. intros H Hb. unfold lsum. induction ls as [|l ls IH]; cbn [fold_right]; [exists 0; lia|]. apply Z.divide_add_r; [|apply IH; intros x I; apply H; right; exact I]. specialize (H l ltac:(left; reflexivity)). exists (2 ^ (b - l)). rewrite <- Z.pow_add_r by lia. f_equal. lia. Qed.
Lemma shorten m a b ls : 0 <= b -> b <= a <= m -> (forall l, In l ls -> l <= b) -> lsum m (a :: b :: ls) <= 2 ^ m -> 1 <= b /\ lsum m (b - 1 :: ls) <= 2 ^ m.
Proof. intros B0 Ba H K. cbn [lsum fold_right] in K. fold (lsum m ls) in K. pose proof (lsum_nonneg m ls) as N. pose proof (lsum_divides m b ls H ltac:(lia)) as [k Ek]. assert (Pa : 0 < 2 ^ (m - a)) by (apply Z.pow_pos_nonneg; lia). assert (Pb : 0 < 2 ^ (m - b)) by (apply Z.pow_pos_nonneg; lia).
  assert (Em : 2 ^ m = 2 ^ b * 2 ^ (m - b)) by (rewrite <- Z.pow_add_r by lia; f_equal; lia). assert (Bp : 1 <= b). { destruct (Z.eq_dec b 0) as [->|]; [|lia]. rewrite Z.sub_0_r in K. lia. } split; [exact Bp|].
  cbn [lsum fold_right]. fold (lsum m ls). replace (m - (b - 1)) with (Z.succ (m - b)) by lia. rewrite Z.pow_succ_r by lia. rewrite Em in K |- *. rewrite Ek in K |- *. assert (Kb : k + 1 < 2 ^ b) by (apply (Z.mul_lt_mono_pos_r (2 ^ (m - b))); [exact Pb|lia]). assert (X : (k + 2) * 2 ^ (m - b) <= 2 ^ b * 2 ^ (m - b)) by (apply Z.mul_le_mono_nonneg_r; lia). lia. Qed.
Lemma huffman_optimal ws h : merges ws h -> (forall w, In w ws -> 0 <= w) -> forall ps m, Permutation (map fst ps) ws ->
  (forall l, In l (map snd ps) -> 0 <= l <= m) -> lsum m (map snd ps) <= 2 ^ m -> h <= dot ps.
Proof. induction 1 as [w|ws a b rest h P Lab Lr Mg IH]; intros Nn ps m Pf Bd K.
  - destruct ps as [|[v l] ps]; [apply Permutation_nil in Pf; discriminate|]. destruct ps as [|q ps]; [|apply Permutation_length in Pf; cbn in Pf; lia]. cbn [map] in Pf. apply Permutation_length_1 in Pf. cbn [fst] in Pf. subst v. cbn [dot fold_right fst snd]. specialize (Bd l ltac:(left; reflexivity)). specialize (Nn w ltac:(left; reflexivity)). nia.
  - assert (Pab : Permutation (a :: b :: rest) (map fst ps)) by (rewrite Pf, P; reflexivity).
    destruct (Permutation_map_inv _ _ Pab) as (ps1 & E1 & Pp). destruct ps1 as [|[a0 la] [|[b0 lb] qs]]; try discriminate. cbn [map fst] in E1. injection E1 as <- <- Er.
    assert (Hb : forall p, In p qs -> b <= fst p) by (intros p I; apply Lr; rewrite Er; apply in_map, I). assert (Ha : forall p, In p ((b, lb) :: qs) -> a <= fst p) by (intros p [<-|I]; [exact Lab|specialize (Hb p I); lia]).
    destruct (exchange a _ Ha la) as (la' & qs1 & Ef1 & P1 & _ & G1 & C1). destruct qs1 as [|[b1 lb1] qs1]; [discriminate|]. cbn [map fst snd] in *. injection Ef1 as -> Ef1.
    assert (Hb1 : forall p, In p qs1 -> b <= fst p). { intros p I. apply Lr. rewrite Er, <- Ef1. apply in_map, I. }
    destruct (exchange b _ Hb1 lb1) as (lb' & qs2 & Ef2 & P2 & _ & G2 & C2).
    assert (PL : Permutation (map snd ps) (la' :: lb' :: map snd qs2)). { rewrite Pp. cbn [map snd]. rewrite P1. rewrite P2. reflexivity. }
    assert (Bd' : forall l, In l (la' :: lb' :: map snd qs2) -> 0 <= l <= m) by (intros l I; apply Bd; eapply Permutation_in; [apply Permutation_sym, PL|exact I]).
    rewrite (lsum_perm _ _ _ PL) in K. assert (Lb : lb' <= la'). { apply G1. eapply Permutation_in; [apply Permutation_sym, P2|left; reflexivity]. }
    pose proof (Bd' la' ltac:(left; reflexivity)) as Ba'. pose proof (Bd' lb' ltac:(right; left; reflexivity)) as Bb'.
    destruct (shorten m la' lb' (map snd qs2)) as [Lb1 K']; [lia|lia|exact G2|exact K|].
    assert (Wa : 0 <= a) by (apply Nn; eapply Permutation_in; [apply Permutation_sym, P|left; reflexivity]). assert (Wb : 0 <= b) by (apply Nn; eapply Permutation_in; [apply Permutation_sym, P|right; left; reflexivity]).
    assert (Q : h <= dot ((a + b, lb' - 1) :: qs2)).
    { apply (IH) with (m := m).
      - intros w [<-|I]; [lia|]. apply Nn. eapply Permutation_in; [apply Permutation_sym, P|right; right; exact I].
      - cbn [map fst]. rewrite Ef2, Ef1, <- Er. reflexivity.
      - cbn [map snd]. intros l [<-|I]; [lia|]. apply Bd'. right. right. exact I.
      - cbn [map snd]. exact K'. }
    rewrite (dot_perm _ _ Pp). cbn [dot fold_right fst snd] in *. fold (dot qs) (dot qs1) (dot qs2) in *. nia. Qed.
