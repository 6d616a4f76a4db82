(** General lemmas on lists, ranges and dictionaries; nothing about the repository. *)
From Verif Require Import Py.
From Coq Require Import Permutation ZifyBool ZifyNat Sorted.

Lemma zrange_length a b : length (zrange a b) = Z.to_nat (b - a).
Proof. unfold zrange. rewrite map_length, seq_length. reflexivity. Qed.

Lemma in_zrange a b x : In x (zrange a b) <-> a <= x < b.
Proof. unfold zrange. rewrite in_map_iff. split.
  - intros (k & <- & Hk). apply in_seq in Hk. lia.
  - intros H. exists (Z.to_nat (x - a)). split; [lia|]. apply in_seq. lia. Qed.

Lemma nodup_map_in {A B} (f : A -> B) l : NoDup l ->
  (forall x y, In x l -> In y l -> f x = f y -> x = y) -> NoDup (map f l).
Proof. induction 1 as [|a l Ha Hl IH]; intros Hf; cbn; constructor.
  - intros H. apply in_map_iff in H. destruct H as (b & E & Hb).
    apply Hf in E; [subst; contradiction|right; exact Hb|left; reflexivity].
  - apply IH. intros x y Hx Hy. apply Hf; right; assumption. Qed.

Lemma zrange_nodup a b : NoDup (zrange a b).
Proof. unfold zrange. apply nodup_map_in; [apply seq_NoDup|]. intros; lia. Qed.

Lemma zrange_nil a b : b <= a -> zrange a b = [].
Proof. intros. unfold zrange. replace (Z.to_nat (b - a)) with 0%nat by lia. reflexivity. Qed.

Lemma map_add_seq n k m : map (fun x => (n + x)%nat) (seq k m) = seq (n + k) m.
Proof. revert k; induction m as [|m IH]; intros k; cbn [seq map]; [reflexivity|].
  rewrite IH. replace (n + S k)%nat with (S (n + k)) by lia. reflexivity. Qed.

Lemma zrange_app a b c : a <= b <= c -> zrange a c = zrange a b ++ zrange b c.
Proof. intros. unfold zrange. replace (Z.to_nat (c - a)) with (Z.to_nat (b - a) + Z.to_nat (c - b))%nat by lia.
  rewrite seq_app, map_app. f_equal. cbn [Nat.add].
  pose proof (map_add_seq (Z.to_nat (b - a)) 0 (Z.to_nat (c - b))) as E. rewrite Nat.add_0_r in E.
  rewrite <- E, map_map. apply map_ext. intros; lia. Qed.

Lemma zrange_cons a b : a < b -> zrange a b = a :: zrange (a + 1) b.
Proof. intros. rewrite (zrange_app a (a + 1) b) by lia. change (a :: zrange (a + 1) b) with ([a] ++ zrange (a + 1) b). f_equal.
  unfold zrange. replace (a + 1 - a) with 1 by lia. change (Z.to_nat 1) with 1%nat. cbn [seq map]. f_equal. lia. Qed.

Lemma zrange_snoc a b : a <= b -> zrange a (b + 1) = zrange a b ++ [b].
Proof. intros. rewrite (zrange_app a b (b + 1)) by lia. f_equal.
  unfold zrange. replace (b + 1 - b) with 1 by lia. change (Z.to_nat 1) with 1%nat. cbn [seq map]. f_equal. lia. Qed.

Lemma zrange_shift a b c : map (fun x => x + c) (zrange a b) = zrange (a + c) (b + c).
Proof. unfold zrange. rewrite map_map. replace (b + c - (a + c)) with (b - a) by lia. apply map_ext. intros; lia. Qed.

Lemma nth_zrange a b n d : (n < Z.to_nat (b - a))%nat -> nth n (zrange a b) d = a + Z.of_nat n.
Proof. intros. unfold zrange. rewrite nth_indep with (d' := a + Z.of_nat 0) by (rewrite map_length, seq_length; lia).
  rewrite (map_nth (fun k => a + Z.of_nat k)). rewrite seq_nth by lia. lia. Qed.

Lemma nth_error_zrange a b n : (n < Z.to_nat (b - a))%nat -> nth_error (zrange a b) n = Some (a + Z.of_nat n).
Proof. intros. rewrite (nth_error_nth' _ 0) by (rewrite zrange_length; lia). rewrite nth_zrange by lia. reflexivity. Qed.

(** Distinct values of the right number inside a range are the whole range. *)
Lemma perm_zrange (l : list Z) a b : NoDup l -> (forall x, In x l -> a <= x < b) ->
  Z.of_nat (length l) = b - a -> Permutation l (zrange a b).
Proof. intros Hn Hi Hl. apply NoDup_Permutation_bis; [exact Hn|rewrite zrange_length; lia|].
  intros x Hx. apply in_zrange. auto. Qed.

Lemma nodup_list_prod {A B} (l : list A) (l' : list B) : NoDup l -> NoDup l' -> NoDup (list_prod l l').
Proof. induction 1 as [|a l Ha Hl IH]; intros H'; cbn; [constructor|].
  assert (D : forall x, In x (map (fun y => (a, y)) l') -> ~ In x (list_prod l l')).
  { intros [x y] Hx Hy. apply in_map_iff in Hx. destruct Hx as (z & E & _). injection E as -> ->.
    apply in_prod_iff in Hy. tauto. }
  specialize (IH H'). revert D. assert (N : NoDup (map (fun y => (a, y)) l')).
  { apply nodup_map_in; [exact H'|]. congruence. }
  induction N as [|p ps Hp Hps IHp]; cbn; intros D; [exact IH|]. constructor.
  - rewrite in_app_iff. intros [H|H]; [contradiction|]. exact (D p (or_introl eq_refl) H).
  - apply IHp. intros x Hx. apply D. right; exact Hx. Qed.

Lemma concat_rows {A B C} (f : A -> B -> C) l l' :
  concat (map (fun a => map (fun b => f a b) l') l) = map (fun p => f (fst p) (snd p)) (list_prod l l').
Proof. induction l as [|a l IH]; cbn; [reflexivity|]. rewrite map_app, map_map, IH. reflexivity. Qed.

Lemma flat_map_perm_ext {A B} (f g : A -> list B) l :
  (forall x, In x l -> Permutation (f x) (g x)) -> Permutation (flat_map f l) (flat_map g l).
Proof. induction l as [|a l IH]; intros H; cbn; [constructor|]. apply Permutation_app.
  - apply H; left; reflexivity.
  - apply IH. intros x Hx. apply H; right; exact Hx. Qed.

Lemma flat_map_app_distr {A B} (f g : A -> list B) l :
  Permutation (flat_map (fun x => f x ++ g x) l) (flat_map f l ++ flat_map g l).
Proof. induction l as [|a l IH]; cbn; [constructor|].
  rewrite <- !app_assoc. apply Permutation_app_head.
  transitivity (g a ++ flat_map f l ++ flat_map g l); [apply Permutation_app_head, IH|].
  rewrite !app_assoc. apply Permutation_app_tail, Permutation_app_comm. Qed.

Lemma flat_map_nil {A B} (l : list A) : flat_map (fun _ => @nil B) l = [].
Proof. induction l; cbn; auto. Qed.

Lemma flat_map_swap {A B C} (g : A -> B -> list C) l l' :
  Permutation (flat_map (fun a => flat_map (fun b => g a b) l') l) (flat_map (fun b => flat_map (fun a => g a b) l) l').
Proof. induction l as [|a l IH]; cbn.
  - rewrite flat_map_nil. constructor.
  - rewrite IH. symmetry. apply flat_map_app_distr. Qed.

Lemma concat_perm {A} (l l' : list (list A)) : Permutation l l' -> Permutation (concat l) (concat l').
Proof. intros H. rewrite <- (map_id l), <- (map_id l'), <- !flat_map_concat_map. apply Permutation_flat_map, H. Qed.

Lemma foldM_app {S A} (f : S -> A -> result S) l1 l2 s :
  foldM f (l1 ++ l2) s = let* s' := foldM f l1 s in foldM f l2 s'.
Proof. revert s; induction l1 as [|a l1 IH]; intros s; [reflexivity|]. cbn [foldM app].
  destruct (f s a); cbn [bind]; [apply IH|reflexivity]. Qed.

(** ** Dictionaries *)
Lemma dget_dset_same {A} (d : dict A) k v : dget (dset d k v) k = Some v.
Proof. induction d as [|[k' a] d IH]; cbn; [rewrite Z.eqb_refl; reflexivity|].
  destruct (k =? k') eqn:E; cbn; rewrite E; [reflexivity|exact IH]. Qed.

Lemma dget_dset_other {A} (d : dict A) k v k2 : k2 <> k -> dget (dset d k v) k2 = dget d k2.
Proof. intros H. induction d as [|[k' a] d IH]; cbn.
  - destruct (k2 =? k) eqn:E; [lia|reflexivity].
  - destruct (k =? k') eqn:E; cbn; [|rewrite IH; reflexivity].
    apply Z.eqb_eq in E; subst k'. destruct (k2 =? k) eqn:E; [lia|reflexivity]. Qed.

Lemma dget_dset {A} (d : dict A) k v k2 : dget (dset d k v) k2 = if k2 =? k then Some v else dget d k2.
Proof. destruct (Z.eqb_spec k2 k) as [->|H]; [apply dget_dset_same|apply dget_dset_other; exact H]. Qed.

Lemma dget_in {A} (d : dict A) k a : dget d k = Some a -> In (k, a) d.
Proof. induction d as [|[k' a'] d IH]; cbn; [discriminate|]. destruct (k =? k') eqn:E.
  - apply Z.eqb_eq in E. intros H; injection H as <-. subst. left; reflexivity.
  - intros H. right. auto. Qed.

Lemma dget_none {A} (d : dict A) k : dget d k = None <-> ~ In k (dkeys d).
Proof. induction d as [|[k' a'] d IH]; cbn; [tauto|]. destruct (k =? k') eqn:E.
  - apply Z.eqb_eq in E. subst. split; [discriminate|]. intros H; exfalso; apply H; left; reflexivity.
  - apply Z.eqb_neq in E. rewrite IH. unfold dkeys in *. split; [intros H [H1|H1]; [congruence|contradiction]|tauto]. Qed.

Lemma dget_some_in {A} (d : dict A) k : In k (dkeys d) <-> exists a, dget d k = Some a.
Proof. destruct (dget d k) eqn:E.
  - split; [eauto|]. intros _. apply dget_in in E. unfold dkeys. apply in_map_iff. exists (k, a); auto.
  - apply dget_none in E. split; [contradiction|]. intros (a & H); discriminate. Qed.

Lemma dkeys_dset {A} (d : dict A) k v :
  dkeys (dset d k v) = if dmem d k then dkeys d else dkeys d ++ [k].
Proof. unfold dmem. induction d as [|[k' a] d IH]; cbn; [reflexivity|].
  destruct (k =? k') eqn:E; cbn; [reflexivity|]. fold (@dkeys A). change (map fst (dset d k v)) with (dkeys (dset d k v)).
  rewrite IH. destruct (dget d k); reflexivity. Qed.

Lemma dset_nodup {A} (d : dict A) k v : NoDup (dkeys d) -> NoDup (dkeys (dset d k v)).
Proof. intros H. rewrite dkeys_dset. unfold dmem. destruct (dget d k) eqn:E; [exact H|].
  apply dget_none in E. apply Permutation_NoDup with (k :: dkeys d).
  - apply Permutation_cons_append.
  - constructor; assumption. Qed.

Lemma dget_nodup_in {A} (d : dict A) k a : NoDup (dkeys d) -> In (k, a) d -> dget d k = Some a.
Proof. induction d as [|[k' a'] d IH]; cbn; [contradiction|]. intros H [E|E].
  - injection E as -> ->. rewrite Z.eqb_refl. reflexivity.
  - inversion H as [|? ? Hn Hd]; subst. destruct (k =? k') eqn:F.
    + apply Z.eqb_eq in F. subst. exfalso. apply Hn. apply in_map_iff. exists (k', a); auto.
    + auto. Qed.

Lemma NoDup_app_intro {A} (a b : list A) : NoDup a -> NoDup b -> (forall x, In x a -> ~ In x b) -> NoDup (a ++ b).
Proof. induction 1 as [|x a Hx Ha IH]; intros Hb H; cbn; [exact Hb|]. constructor.
  - intros I. apply in_app_or in I. destruct I as [I|I]; [contradiction|]. apply (H x); [left; reflexivity|exact I].
  - apply IH; [exact Hb|]. intros y Hy. apply H. right; exact Hy. Qed.

Lemma NoDup_app_elim {A} (a b : list A) : NoDup (a ++ b) -> NoDup a /\ NoDup b /\ forall x, In x a -> ~ In x b.
Proof. induction a as [|y a IH]; cbn; intros H.
  - split; [constructor|]. split; [exact H|]. intros x [].
  - inversion H as [|? ? Hn Hr]; subst. destruct (IH Hr) as (A1 & B1 & C1). split; [constructor; [intros X; apply Hn, in_or_app; auto|exact A1]|].
    split; [exact B1|]. intros x [<-|Hx]; [intros X; apply Hn, in_or_app; auto|apply C1, Hx]. Qed.

(** ** Sorting *)
Lemma insert_by_perm {A} (key : A -> Z) a l : Permutation (insert_by key a l) (a :: l).
Proof. induction l as [|b l IH]; cbn; [reflexivity|]. destruct (key a <=? key b); [reflexivity|].
  rewrite IH. apply perm_swap. Qed.
Lemma sort_by_perm {A} (key : A -> Z) l : Permutation (sort_by key l) l.
Proof. induction l as [|a l IH]; cbn; [reflexivity|]. rewrite insert_by_perm. constructor. exact IH. Qed.
Lemma insert_by_sorted {A} (key : A -> Z) a l :
  StronglySorted (fun x y => key x <= key y) l -> StronglySorted (fun x y => key x <= key y) (insert_by key a l).
Proof. induction 1 as [|b l S IH F]; cbn; [repeat constructor|]. destruct (key a <=? key b) eqn:E.
  - constructor; [constructor; assumption|]. constructor; [lia|].
    eapply Forall_impl; [|exact F]. cbn; intros; lia.
  - constructor; [exact IH|]. apply (Permutation_Forall (Permutation_sym (insert_by_perm key a l))).
    constructor; [lia|exact F]. Qed.
Lemma sort_by_sorted {A} (key : A -> Z) l : StronglySorted (fun x y => key x <= key y) (sort_by key l).
Proof. induction l as [|a l IH]; cbn; [constructor|]. apply insert_by_sorted, IH. Qed.

(** ** index *)
Lemma zindex_spec l x k : zindex l x = Ok k ->
  0 <= k < Z.of_nat (length l) /\ nth (Z.to_nat k) l (-1) = x.
Proof. revert k; induction l as [|y l IH]; cbn [zindex]; intros k H; [discriminate|]. destruct (Z.eqb_spec y x) as [->|N].
  - injection H as <-. cbn [length]. split; [lia|reflexivity].
  - destruct (zindex l x) as [j|]; [|discriminate]. assert (k = 1 + j) by (cbn [rmap] in H; congruence). subst k. destruct (IH j eq_refl) as [B E].
    cbn [length]. split; [lia|]. replace (Z.to_nat (1 + j)) with (S (Z.to_nat j)) by lia. exact E. Qed.
Lemma zindex_in l x : In x l <-> exists k, zindex l x = Ok k.
Proof. induction l as [|y l IH]; cbn [zindex In].
  - split; [tauto|]. intros (k & H); discriminate.
  - destruct (Z.eqb_spec y x) as [->|N]; [split; eauto|]. rewrite IH. split.
    + intros [H|(k & ->)]; [contradiction|]. cbn. eauto.
    + intros (k & H). destruct (zindex l x); [eauto|discriminate]. Qed.

(** ** flat_map without repetition *)
Lemma nodup_flat_map_intro {A B} (f : A -> list B) L : NoDup L -> (forall a, In a L -> NoDup (f a)) ->
  (forall a a' b, In a L -> In a' L -> In b (f a) -> In b (f a') -> a = a') -> NoDup (flat_map f L).
Proof. induction 1 as [|a L Ha HL IH]; intros H1 H2; cbn; [constructor|]. apply NoDup_app_intro.
  - apply H1; left; reflexivity.
  - apply IH; [intros; apply H1; right; assumption|]. intros x y b Hx Hy. apply H2; right; assumption.
  - intros b Hb Hb'. apply in_flat_map in Hb'. destruct Hb' as (a' & Ha' & Hb').
    assert (a = a') by (apply (H2 a a' b); [left; reflexivity|right; exact Ha'|exact Hb|exact Hb']). subst. contradiction. Qed.
Lemma nodup_flat_map_elim {A B} (f : A -> list B) L a a' b : NoDup (flat_map f L) ->
  In a L -> In a' L -> In b (f a) -> In b (f a') -> a = a'.
Proof. induction L as [|x L IH]; cbn; [contradiction|]. intros N Ha Ha' Hb Hb'.
  apply NoDup_app_elim in N. destruct N as (_ & N & D). destruct Ha as [<-|Ha], Ha' as [<-|Ha'].
  - reflexivity.
  - exfalso. apply (D b Hb). apply in_flat_map. eauto.
  - exfalso. apply (D b Hb'). apply in_flat_map. eauto.
  - apply IH; assumption. Qed.

(** ** Rank in a sorted list *)
Lemma filter_false {A} (f : A -> bool) l : (forall x, In x l -> f x = false) -> filter f l = [].
Proof. induction l as [|a l IH]; intros H; cbn; [reflexivity|]. rewrite H by (left; reflexivity).
  apply IH. intros x Hx. apply H. right; exact Hx. Qed.
Lemma rank_nth s a : StronglySorted Z.le s -> NoDup s -> In a s ->
  nth_error s (length (filter (fun b => b <? a) s)) = Some a.
Proof. induction 1 as [|b s S IH F]; intros N Ha; [destruct Ha|]. inversion N as [|? ? Hb N']; subst. cbn [filter].
  rewrite Forall_forall in F. destruct Ha as [<-|Ha].
  - rewrite Z.ltb_irrefl. rewrite filter_false; [reflexivity|]. intros x Hx. specialize (F x Hx). lia.
  - specialize (F a Ha). assert (b <> a) by (intros ->; contradiction). replace (b <? a) with true by lia.
    cbn [length nth_error]. apply IH; assumption. Qed.
Lemma filter_perm_length {A} (f : A -> bool) l l' : Permutation l l' -> length (filter f l) = length (filter f l').
Proof. induction 1; cbn; try congruence; repeat (match goal with |- context [f ?x] => destruct (f x) end); cbn; congruence. Qed.

Lemma dget_map_values {A B} (f : A -> B) (d : dict A) k :
  dget (map (fun kv => (fst kv, f (snd kv))) d) k = option_map f (dget d k).
Proof. induction d as [|[k' a] d IH]; cbn; [reflexivity|]. destruct (k =? k'); [reflexivity|exact IH]. Qed.

Lemma sorted_weaken {A} (R R' : A -> A -> Prop) l : StronglySorted R l ->
  (forall x y, In x l -> In y l -> R x y -> R' x y) -> StronglySorted R' l.
Proof. induction 1 as [|a l S IH F]; intros H; constructor.
  - apply IH. intros x y Hx Hy. apply H; right; assumption.
  - rewrite Forall_forall in *. intros y Hy. apply H; [left; reflexivity|right; exact Hy|apply F, Hy]. Qed.
