(** C168: what the size computed for a text depends on. *)
From Verif Require Import ListLemmas HuffmanModel HuffmanSpec HuffmanProofs HuffmanProps ScriptProps.
From Coq Require Import ZifyBool ZifyNat Permutation.

(** What a caller gets for a program: its parts are counted and the size of the
    counted parts is asked for. *)
Definition size_of (program : list Z) (x : Z -> result (list Z)) : result Z :=
  let* (freq, _) := freq_info program x in huffman_size freq None.

(** [new] is [old] with some of the occurrences of [s] replaced by [t]. *)
Definition replaces (s t : Z) (old new : list Z) : Prop :=
  Forall2 (fun a b => b = a \/ a = s /\ b = t) old new.

Lemma message_length_cons c a l : Z.of_nat (length (message c (a :: l))) = Z.of_nat (length (c a)) + Z.of_nat (length (message c l)).
Proof. cbn [message flat_map]. rewrite app_length, Nat2Z.inj_add. reflexivity. Qed.
Lemma message_perm c a b : Permutation a b -> length (message c a) = length (message c b).
Proof. induction 1; cbn [message flat_map] in *; rewrite ?app_length in *; unfold message in *; lia. Qed.
Lemma prefix_free_incl a b c : incl a b -> prefix_free b c -> prefix_free a c.
Proof. intros I P s t Is It H. apply P; [apply I, Is|apply I, It|exact H]. Qed.
Lemma fewest_unique seq n m : fewest_bits seq n -> fewest_bits seq m -> n = m.
Proof. intros [(c & Pc & Ec) Lc] [(d & Pd & Ed) Ld]. specialize (Lc d Pd). specialize (Ld c Pc). lia. Qed.
Lemma message_map f c l : message c (map f l) = message (fun s => c (f s)) l.
Proof. induction l as [|a l IH]; cbn [map message flat_map]; [reflexivity|]. unfold message in IH. rewrite IH. reflexivity. Qed.

Lemma fewest_rename f seq seq' n m : (forall a b, In a seq -> In b seq -> f a = f b -> a = b) -> Permutation (map f seq) seq' -> fewest_bits seq n -> fewest_bits seq' m -> n = m.
Proof. intros J P [(c & Pc & Ec) Lc] [(d & Pd & Ed) Ld].
  assert (I1 : incl (map f seq) seq') by (intros x; apply Permutation_in, P).
  assert (m >= n).
  { specialize (Lc (fun s => d (f s))). rewrite <- message_map, (message_perm d _ _ P) in Lc. rewrite Ed in Lc. apply Z.le_ge, Lc. intros s t Is It H. apply J; [exact Is|exact It|]. apply Pd; [apply I1, in_map, Is|apply I1, in_map, It|exact H]. }
  set (g := fun y => match find (fun a => f a =? y) seq with Some a => a | None => 0 end).
  assert (G : forall a, In a seq -> g (f a) = a).
  { intros a Ia. unfold g. destruct (find (fun b => f b =? f a) seq) as [b|] eqn:F; [apply find_some in F; destruct F as [Ib Fb]; apply J; [exact Ib|exact Ia|lia]|]. apply (find_none _ _ F) in Ia. lia. }
  assert (n >= m); [|lia]. specialize (Ld (fun y => c (g y))). rewrite <- (message_perm (fun y => c (g y)) _ _ P), message_map in Ld.
  assert (X : message (fun s => c (g (f s))) seq = message c seq). { unfold message. clear - G. clearbody g. induction seq as [|a l IH]; [reflexivity|]. cbn [flat_map]. rewrite (G a) by (left; reflexivity). f_equal. apply IH. intros b Ib. apply G. right. exact Ib. }
  rewrite X, Ec in Ld. apply Z.le_ge, Ld. intros y z Iy Iz Hyz.
  apply (Permutation_in _ (Permutation_sym P)) in Iy, Iz. apply in_map_iff in Iy, Iz. destruct Iy as (a & <- & Ia), Iz as (b & <- & Ib). rewrite !G in Hyz by assumption. f_equal. apply Pc; assumption. Qed.

Lemma count_message c : forall seq seq', (forall s, (count_occ Z.eq_dec seq s <= count_occ Z.eq_dec seq' s)%nat) -> (length (message c seq) <= length (message c seq'))%nat.
Proof. induction seq as [|a l IH]; intros seq' H; [cbn; lia|].
  assert (I : In a seq'). { apply (count_occ_In Z.eq_dec). specialize (H a). rewrite count_occ_cons_eq in H by reflexivity. lia. }
  apply in_split in I. destruct I as (u & v & ->). rewrite (message_perm c (u ++ a :: v) (a :: u ++ v)) by (symmetry; apply Permutation_middle).
  cbn [message flat_map]. rewrite !app_length. fold (message c l) (message c (u ++ v)). enough (length (message c l) <= length (message c (u ++ v)))%nat by lia. apply IH. intros s. specialize (H s). rewrite (proj1 (Permutation_count_occ Z.eq_dec _ _) (Permutation_sym (Permutation_middle u v a))) in H. cbn [count_occ] in H. destruct (Z.eq_dec a s); lia. Qed.
Lemma fewest_more seq seq' n m : (forall s, (count_occ Z.eq_dec seq s <= count_occ Z.eq_dec seq' s)%nat) -> fewest_bits seq n -> fewest_bits seq' m -> n <= m.
Proof. intros H [_ Lc] [(d & Pd & Ed) _]. assert (I : incl seq seq'). { intros s Is. apply (count_occ_In Z.eq_dec) in Is. apply (count_occ_In Z.eq_dec). specialize (H s). lia. }
  specialize (Lc d (prefix_free_incl _ _ _ I Pd)). pose proof (count_message d _ _ H). lia. Qed.

Lemma replaces_shorter s t c old new : (length (c t) <= length (c s))%nat -> replaces s t old new -> (length (message c new) <= length (message c old))%nat.
Proof. intros L. induction 1 as [|a b old new H _ IH]; [cbn; lia|]. cbn [message flat_map]. rewrite !app_length. fold (message c old) (message c new). destruct H as [->|[-> ->]]; lia. Qed.
Lemma replaces_incl s t old new : In t old -> replaces s t old new -> incl new old.
Proof. intros It R. assert (G : forall l, replaces s t l new -> incl l old -> incl new old); [|apply (G old R), incl_refl].
  clear R. intros l R. induction R as [|a b l new' H _ IH]; intros I x Ix; [destruct Ix|]. destruct Ix as [<-|Ix]; [destruct H as [->|[-> ->]]; [apply I; left; reflexivity|exact It]|apply IH; [intros y Iy; apply I; right; exact Iy|exact Ix]]. Qed.
Definition swap (s t : Z) (c : code_of) : code_of := fun x => if x =? s then c t else if x =? t then c s else c x.
Lemma swap_length s t c seq : s <> t -> Z.of_nat (length (message (swap s t c) seq)) =
  Z.of_nat (length (message c seq)) + (Z.of_nat (count_occ Z.eq_dec seq s) - Z.of_nat (count_occ Z.eq_dec seq t)) * (Z.of_nat (length (c t)) - Z.of_nat (length (c s))).
Proof. intros N. induction seq as [|a l IH]; [cbn; lia|]. rewrite !message_length_cons, IH. unfold swap at 1. cbn [count_occ]. destruct (Z.eqb_spec a s) as [E|E], (Z.eqb_spec a t) as [E'|E'], (Z.eq_dec a s), (Z.eq_dec a t); subst; try congruence; rewrite ?Nat2Z.inj_succ; ring. Qed.
Lemma fewest_move s t old new n m : (count_occ Z.eq_dec old s <= count_occ Z.eq_dec old t)%nat -> replaces s t old new -> fewest_bits old n -> fewest_bits new m -> m <= n.
Proof. intros H R [(c & Pc & Ec) _] [_ Ld].
  destruct (in_dec Z.eq_dec s old) as [Is|Ns].
  2:{ assert (new = old) as ->. { clear - R Ns. induction R as [|a b old new H _ IH]; [reflexivity|]. f_equal; [destruct H as [->|[-> ->]]; [reflexivity|exfalso; apply Ns; left; reflexivity]|apply IH; intros X; apply Ns; right; exact X]. } rewrite <- Ec. apply Ld, Pc. }
  assert (It : In t old). { apply (count_occ_In Z.eq_dec). apply (count_occ_In Z.eq_dec) in Is. lia. }
  pose proof (replaces_incl _ _ _ _ It R) as I.
  destruct (Nat.le_gt_cases (length (c t)) (length (c s))) as [L|L].
  - pose proof (replaces_shorter s t c _ _ L R). specialize (Ld c (prefix_free_incl _ _ _ I Pc)). lia.
  - assert (N : s <> t) by (intros ->; lia).
    assert (L' : (length (swap s t c t) <= length (swap s t c s))%nat). { unfold swap. rewrite !Z.eqb_refl. replace (t =? s) with false by lia. lia. }
    pose proof (replaces_shorter s t (swap s t c) _ _ L' R) as B.
    assert (P' : prefix_free old (swap s t c)). { intros x y Ix Iy X. unfold swap in X. destruct (Z.eqb_spec x s), (Z.eqb_spec y s), (Z.eqb_spec x t), (Z.eqb_spec y t); first [congruence | apply Pc in X; [congruence|assumption|assumption]]. }
    specialize (Ld _ (prefix_free_incl _ _ _ I P')). pose proof (swap_length s t c old N) as E. nia. Qed.

Lemma size_fewest program x fields : (forall p, In p program -> x p = Ok (fields p)) -> flat_map fields program <> [] -> exists n, size_of program x = Ok n /\ fewest_bits (flat_map fields program) n.
Proof. intros H Ne. destruct (counted program x fields H) as (freq & w & E & M). unfold size_of. rewrite E. cbn [bind]. destruct (flat_map fields program); [congruence|]. exact M. Qed.
Lemma size_empty program x fields : (forall p, In p program -> x p = Ok (fields p)) -> flat_map fields program = [] -> size_of program x = Err IndexError.
Proof. intros H Ne. destruct (counted program x fields H) as (freq & w & E & M). unfold size_of. rewrite E. cbn [bind]. rewrite Ne in M. subst freq. reflexivity. Qed.

(** C168: for any two programs whose parts can all be read; [old] and [new] are all
    the parts of all their instructions. *)
Theorem C168_only_counts : forall program x fields program' x' fields',
  (forall p, In p program -> x p = Ok (fields p)) -> (forall p, In p program' -> x' p = Ok (fields' p)) ->
  let old := flat_map fields program in
  let new := flat_map fields' program' in
  (* the same text, but for the order and the names of the symbols: the same answer *)
  (forall f, (forall a b, In a old -> In b old -> f a = f b -> a = b) -> Permutation (map f old) new ->
     size_of program' x' = size_of program x) /\
  (old <> [] -> new <> [] -> exists n m, size_of program x = Ok n /\ size_of program' x' = Ok m /\
     (* at least as many of each symbol: at least as many bits *)
     ((forall s, (count_occ Z.eq_dec old s <= count_occ Z.eq_dec new s)%nat) -> n <= m) /\
     (* some occurrences of a symbol replaced by one that is as frequent: no more bits *)
     (forall s t, (count_occ Z.eq_dec old s <= count_occ Z.eq_dec old t)%nat -> replaces s t old new -> m <= n)).
Proof. intros program x fields program' x' fields' H H' old new. split.
  - intros f J P. destruct old as [|a l] eqn:Eo.
    + cbn [map] in P. apply Permutation_nil in P. rewrite (size_empty _ _ _ H Eo). apply (size_empty _ _ _ H' P).
    + assert (Ne : old <> []) by (rewrite Eo; discriminate). assert (Ne' : new <> []) by (intros X; rewrite X in P; apply Permutation_sym, Permutation_nil in P; discriminate).
      destruct (size_fewest _ _ _ H Ne) as (n & -> & Fn), (size_fewest _ _ _ H' Ne') as (m & -> & Fm). f_equal. symmetry. rewrite <- Eo in J, P. exact (fewest_rename f _ _ _ _ J P Fn Fm).
  - intros Ne Ne'. destruct (size_fewest _ _ _ H Ne) as (n & En & Fn), (size_fewest _ _ _ H' Ne') as (m & Em & Fm). exists n, m. split; [exact En|]. split; [exact Em|]. split.
    + intros C. exact (fewest_more _ _ _ _ C Fn Fm).
    + intros s t C R. exact (fewest_move s t _ _ _ _ C R Fn Fm). Qed.
Print Assumptions C168_only_counts.

(** Two occurrences of register 4 replaced by register 1 save bits; replacing two of
    the more frequent symbol 1 by the rarer 5 costs one, so the condition is needed. *)
Example C168_example : let x (p : Z) := Ok (if p =? 0 then [1; 4; 1] else if p =? 1 then [4; 5; 1] else if p =? 2 then [1; 1; 1] else if p =? 3 then [1; 5; 1] else if p =? 4 then [6; 7; 4] else if p =? 5 then [1; 5; 6] else [5; 1; 5]) in
  size_of [0; 1; 4] x = Ok 20 /\ size_of [2; 3; 4] x = Ok 17 /\ replaces 4 1 [1; 4; 1; 4; 5; 1; 6; 7; 4] [1; 1; 1; 1; 5; 1; 6; 7; 4] /\
  size_of [2; 5] x = Ok 8 /\ size_of [6; 5] x = Ok 9 /\ replaces 1 5 [1; 1; 1; 1; 5; 6] [5; 1; 5; 1; 5; 6].
Proof. cbv zeta. repeat split; try (vm_compute; reflexivity); repeat constructor; (left; reflexivity) || (right; split; reflexivity). Qed.
