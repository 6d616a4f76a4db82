(** C164: every solution file that can be read can be written again. *)
From Verif Require Import ListLemmas IoModel IoSpec IoProofs IoProps.
From Coq Require Import ZifyBool ZifyNat.

(** *** Proof *)
Definition bytes (f : list Z) : Prop := forall b, In b f -> 0 <= b < 256.
Lemma of_le_range l : bytes l -> 0 <= of_le_bytes l < 2 ^ (8 * Z.of_nat (length l)).
Proof. induction l as [|b l IH]; intros B; [cbn; lia|]. unfold of_le_bytes in *. cbn [fold_right length]. specialize (IH (fun c I => B c (or_intror I))). specialize (B b (or_introl eq_refl)).
  replace (2 ^ (8 * Z.of_nat (S (length l)))) with (256 * 2 ^ (8 * Z.of_nat (length l))) by (rewrite Nat2Z.inj_succ; replace (8 * Z.succ (Z.of_nat (length l))) with (8 + 8 * Z.of_nat (length l)) by lia; rewrite Z.pow_add_r by lia; reflexivity).
  generalize dependent (2 ^ (8 * Z.of_nat (length l))). generalize (fold_right (fun b acc => b + 256 * acc) 0 l). intros v w H. lia. Qed.
Lemma get_range n f v r : bytes f -> get n f = Ok (v, r) -> 0 <= v < 2 ^ (8 * Z.of_nat n) /\ bytes r.
Proof. intros B. unfold get. destruct (length (firstn n f) =? n)%nat eqn:E; [|discriminate]. intros H.
  assert (H1 : v = of_le_bytes (firstn n f) /\ r = skipn n f) by (split; congruence). destruct H1 as [-> ->]. apply Nat.eqb_eq in E. split.
  - pose proof (of_le_range (firstn n f)) as R. rewrite E in R. apply R. intros b I. apply B. rewrite <- (firstn_skipn n f). apply in_or_app. left; exact I.
  - intros b I. apply B. rewrite <- (firstn_skipn n f). apply in_or_app. right; exact I. Qed.
Lemma get4_range f v r : bytes f -> get 4 f = Ok (v, r) -> fits32 v /\ bytes r.
Proof. intros B H. exact (get_range 4 f v r B H). Qed.
Lemma insts_range n : forall addr f l r, bytes f -> read_insts n addr f = Ok (l, r) -> length l = n /\ bytes r /\ forall c, In c l -> fits32 (encoding c) /\ address c = addr.
Proof. induction n as [|n IH]; intros addr f l r B H; cbn [read_insts] in H; [injection H as <- <-; split; [reflexivity|]; split; [exact B|intros c []]|].
  destruct (get 4 f) as [[e f1]|] eqn:G; cbn [bind] in H; [|discriminate]. destruct (read_insts n addr f1) as [[l1 f2]|] eqn:R; cbn [bind] in H; [|discriminate]. apply get4_range in G; [|exact B]. destruct G as [Fe B1]. destruct (IH _ _ _ _ B1 R) as (L & B2 & C).
  assert (H1 : l = (e, addr) :: l1 /\ r = f2) by (split; congruence). destruct H1 as [-> ->]. split; [cbn [length]; congruence|]. split; [exact B2|]. intros c [<-|I]; [split; [exact Fe|reflexivity]|exact (C c I)]. Qed.

(** What the reader has built so far. *)
Definition built (o p : dict (list inst)) : Prop :=
  dkeys o = dkeys p /\ NoDup (dkeys p) /\ forall k l, dget p k = Some l -> fits32 k /\ Z.of_nat (length l) < 2 ^ 32 /\ (forall c, In c l -> fits32 (encoding c) /\ address c = k) /\ exists pre x, l = pre ++ [x] /\ dget o k = Some [x].
Lemma dkeys_set {A B} (d : dict A) (d' : dict B) k v v' : dkeys d = dkeys d' -> dkeys (dset d k v) = dkeys (dset d' k v').
Proof. revert d'. induction d as [|[k1 a] d IH]; intros [|[k2 b] d'] E; unfold dkeys in *; cbn [map fst] in E; try discriminate; [reflexivity|]. assert (H : k1 = k2 /\ map fst d = map fst d') by (split; congruence). destruct H as [-> H]. cbn [dset]. destruct (k =? k2); cbn [map fst]; [rewrite H; reflexivity|]. rewrite (IH d' H). reflexivity. Qed.
Lemma length_set {A} (d : dict A) k v : (length (dset d k v) <= S (length d))%nat.
Proof. induction d as [|[k1 a] d IH]; cbn [dset length]; [lia|]. destruct (k =? k1); cbn [length]; lia. Qed.
Lemma NoDup_app_one {A} (l : list A) x : NoDup l -> ~ In x l -> NoDup (l ++ [x]).
Proof. induction 1 as [|y l H N IH]; intros D; cbn [app]; constructor; [intros []|constructor| |].
  - intros I. apply in_app_or in I. destruct I as [I|[->|[]]]; [exact (H I)|apply D; left; reflexivity].
  - apply IH. intros I. apply D. right; exact I. Qed.
Lemma nodup_set {A} (d : dict A) k v : NoDup (dkeys d) -> NoDup (dkeys (dset d k v)).
Proof. intros N. rewrite dkeys_dset. unfold dmem. destruct (dget d k) eqn:G; [exact N|]. apply dget_none in G. apply NoDup_app_one; assumption. Qed.
Lemma entries_built n : forall o p f o' p' r, bytes f -> built o p -> read_entries n o p f = Ok (o', p', r) -> built o' p' /\ (length p' <= length p + n)%nat.
Proof. induction n as [|n IH]; intros o p f o' p' r B I H; cbn [read_entries] in H; [injection H as <- <- _; split; [exact I|lia]|].
  destruct (get 4 f) as [[a f1]|] eqn:G1; cbn [bind] in H; [|discriminate]. apply get4_range in G1; [|exact B]. destruct G1 as [Fa B1].
  destruct (get 4 f1) as [[c f2]|] eqn:G2; cbn [bind] in H; [|discriminate]. apply get4_range in G2; [|exact B1]. destruct G2 as [Fc B2].
  destruct (0 <? c) eqn:C; [|destruct (IH _ _ _ _ _ _ B2 I H) as [X L]; split; [exact X|lia]].
  destruct (read_insts (Z.to_nat c) a f2) as [[l f3]|] eqn:R; cbn [bind] in H; [|discriminate]. apply insts_range in R; [|exact B2]. destruct R as (L & B3 & Cl).
  destruct l as [|x l _] using rev_ind; [cbn [length] in L; lia|]. rewrite app_length in L. cbn [length] in L.
  assert (Nx : nth_r (l ++ [x]) (Z.to_nat c - 1) = Ok x) by (unfold nth_r; rewrite nth_error_app2 by lia; replace (Z.to_nat c - 1 - length l)%nat with 0%nat by lia; reflexivity). rewrite Nx in H. cbn [bind] in H.
  assert (Ex : (encoding x, a) = x) by (destruct (Cl x) as [_ <-]; [apply in_or_app; right; left; reflexivity|]; destruct x; reflexivity). rewrite Ex in H.
  apply IH in H; [|exact B3|].
  - destruct H as [X Y]. split; [exact X|]. pose proof (length_set p a (l ++ [x])). lia.
  - destruct I as (K & N & D). split; [apply dkeys_set; exact K|]. split; [apply nodup_set; exact N|]. intros k m. rewrite !dget_dset. destruct (Z.eqb_spec k a) as [->|Ne].
    + intros E. injection E as <-. split; [exact Fa|]. split; [rewrite app_length; cbn [length]; unfold fits32 in Fc; lia|]. split; [exact Cl|]. exists l, x. split; reflexivity.
    + intros E. exact (D k m E). Qed.

Lemma first_with e (l : list inst) x : In x l -> encoding x = e -> exists pre y post, l = pre ++ y :: post /\ encoding y = e /\ forall c, In c pre -> encoding c <> e.
Proof. induction l as [|c l IH]; intros I E; [destruct I|]. destruct (Z.eq_dec (encoding c) e) as [Ec|Ec]; [exists [], c, l; split; [reflexivity|]; split; [exact Ec|intros d []]|].
  destruct I as [->|I]; [congruence|]. destruct (IH I E) as (pre & y & post & -> & Ey & H). exists (c :: pre), y, post. split; [reflexivity|]. split; [exact Ey|]. intros d [<-|J]; [exact Ec|exact (H d J)]. Qed.
Lemma same_keys_values {A} (d d' : dict A) : NoDup (dkeys d) -> dkeys d = dkeys d' -> (forall k, dget d k = dget d' k) -> d = d'.
Proof. revert d'. induction d as [|[k v] d IH]; intros [|[k' v'] d'] N E G; unfold dkeys in *; cbn [map fst] in *; try discriminate; [reflexivity|]. assert (H : k = k' /\ map fst d = map fst d') by (split; congruence). destruct H as [<- H]. inversion N as [|? ? Nk Nd]; subst.
  pose proof (G k) as Gk. cbn [dget] in Gk. rewrite Z.eqb_refl in Gk. injection Gk as <-. f_equal. apply IH; [exact Nd|exact H|]. intros j. pose proof (G j) as Gj. cbn [dget] in Gj. destruct (Z.eqb_spec j k) as [Ej|_]; [rewrite Ej in *; clear Ej|exact Gj].
  transitivity (@None A); [apply dget_none; exact Nk|symmetry; apply dget_none; unfold dkeys; rewrite <- H; exact Nk]. Qed.

(** C164. *)
Theorem C164_any_file : forall file o p, (forall b, In b file -> 0 <= b < 256) -> read file = Ok (o, p) ->
  exists file' p', write_binary o p = (file', Ok tt) /\ read file' = Ok (o, p') /\
    Forall2 (fun kv kv' => fst kv' = fst kv /\ exists pre x post, snd kv = pre ++ x :: post /\ snd kv' = pre ++ [x] /\ dget o (fst kv) = Some [x] /\ ~ In x pre) p p'.
Proof. intros file o p B H. unfold read, read_file in H. destruct (get 8 file) as [[m f1]|] eqn:G; cbn [bind] in H; [|discriminate]. apply get_range in G; [|exact B]. destruct G as [_ B1]. destruct (negb _); [discriminate|].
  destruct (get 4 f1) as [[n f2]|] eqn:G2; cbn [bind] in H; [|discriminate]. apply get4_range in G2; [|exact B1]. destruct G2 as [Fn B2].
  destruct (read_entries (Z.to_nat n) [] [] f2) as [[[o1 p1] r]|] eqn:R; cbn [bind] in H; [|discriminate]. assert (H1 : o1 = o /\ p1 = p) by (split; congruence). destruct H1 as [-> ->].
  apply entries_built in R; [|exact B2|split; [reflexivity|]; split; [constructor|discriminate]]. destruct R as [(K & N & D) L]. cbn [length] in L.
  assert (Ad : forall k l c, In (k, l) p -> In c l -> address c = k) by (intros k l c I J; destruct (D k l (dget_nodup_in p k l N I)) as (_ & _ & C & _); exact (proj2 (C c J))).
  assert (W : Forall (writable o) p).
  { apply Forall_forall. intros [k l] I. destruct (D k l (dget_nodup_in p k l N I)) as (Fk & Ln & C & pre0 & x & E & G).
    destruct (first_with (encoding x) l x) as (pre & y & post & El & Ey & Hp); [rewrite E; apply in_or_app; right; left; reflexivity|reflexivity|].
    exists pre, y, post. cbn [fst snd]. split; [exists x, []; auto|]. split; [exact Fk|]. split; [intros c J; apply C; rewrite El; apply in_or_app; apply in_app_or in J; destruct J as [J|[<-|[]]]; [left; exact J|right; left; reflexivity]|]. rewrite El, app_length in Ln. cbn [length] in Ln. lia. }
  destruct (C45_round_trip o p N W) as (file' & o' & p' & Wr & Rd & Lo & Lp & En); [unfold fits32 in Fn; lia|].
  (* entry by entry *)
  assert (F : Forall2 (fun kv kv' => fst kv' = fst kv /\ exists pre x post, snd kv = pre ++ x :: post /\ snd kv' = pre ++ [x] /\ dget o (fst kv) = Some [x] /\ ~ In x pre) p p' /\ Forall2 (fun kv kvo => fst kvo = fst kv /\ dget o (fst kv) = Some (snd kvo)) p o').
  { assert (S : forall kv kvo kvp, In kv p -> entry_back o kv kvo kvp -> (fst kvp = fst kv /\ exists pre x post, snd kv = pre ++ x :: post /\ snd kvp = pre ++ [x] /\ dget o (fst kv) = Some [x] /\ ~ In x pre) /\ fst kvo = fst kv /\ dget o (fst kv) = Some (snd kvo)).
    { intros [k l] kvo kvp I (pre & y & post & (x & ot & G & E & Ey & Hp) & -> & ->). cbn [fst snd] in *. destruct (D k l (dget_nodup_in p k l N I)) as (_ & _ & C & pre0 & x0 & E0 & G0). rewrite G in G0. injection G0 as -> ->.
      assert (Yx : y = x0). { assert (A1 : address y = k) by (apply (C y); rewrite E; apply in_or_app; right; left; reflexivity). assert (A2 : address x0 = k) by (apply (C x0); rewrite E0; apply in_or_app; right; left; reflexivity). destruct y as [ey ay], x0 as [ex ax]. cbn in *. congruence. }
      subst y. assert (M : forall c, In c (pre ++ [x0]) -> (encoding c, k) = c). { intros c J. assert (A : address c = k). { apply (C c). rewrite E. apply in_or_app. apply in_app_or in J. destruct J as [J|[<-|[]]]; [left; exact J|right; left; reflexivity]. } destruct c as [ec ac]. cbn in *. congruence. }
      split; [split; [reflexivity|]; exists pre, x0, post; split; [exact E|]; split; [erewrite map_ext_in; [apply map_id|exact M]|]; split; [exact G|]; intros J; exact (Hp x0 J eq_refl)|]. split; [reflexivity|]. rewrite (M x0) by (apply in_or_app; right; left; reflexivity). exact G. }
    clear - S Lo Lp En. revert o' p' Lo Lp En. induction p as [|kv p IH]; intros [|kvo o'] [|kvp p'] Lo Lp En; try discriminate; [split; constructor|].
    destruct (En 0%nat kv eq_refl) as (a & b & Ea & Eb & Bk). cbn [nth_error] in Ea, Eb. injection Ea as <-. injection Eb as <-. destruct (S kv kvo kvp (or_introl eq_refl) Bk) as [S1 S2].
    destruct (IH (fun kv kvo kvp I => S kv kvo kvp (or_intror I)) o' p') as [F1 F2]; [cbn in Lo; lia|cbn in Lp; lia|intros m kv0 Hm; exact (En (Datatypes.S m) kv0 Hm)|]. split; constructor; assumption. }
  destruct F as [Fp Fo]. exists file', p'. split; [exact Wr|]. split; [|exact Fp]. rewrite Rd. do 2 f_equal.
  assert (Ko : dkeys o' = dkeys p) by (clear - Fo; unfold dkeys; induction Fo as [|kv kvo p o' [E _] Fo IH]; [reflexivity|]; cbn [map]; rewrite E, IH; reflexivity).
  apply same_keys_values; [rewrite Ko; exact N|rewrite Ko; symmetry; exact K|]. intros k. destruct (dget o' k) as [v|] eqn:G.
  - apply dget_in in G. assert (X : exists kv, In kv p /\ fst kv = k /\ dget o (fst kv) = Some v). { clear - Fo G. induction Fo as [|kv kvo p o' [E1 E2] Fo IH]; [destruct G|]. destruct G as [->|G]; [exists kv; split; [left; reflexivity|]; split; [symmetry; exact E1|exact E2]|]. destruct (IH G) as (kv' & I & X). exists kv'. split; [right; exact I|exact X]. } destruct X as (kv & _ & <- & X). symmetry. exact X.
  - symmetry. apply dget_none. apply dget_none in G. rewrite K, <- Ko. exact G. Qed.
Print Assumptions C164_any_file.
(** An address twice, an entry without candidates, an original repeated among the candidates, bytes behind the end. *)
Example C164_example : let file := le_bytes 8 magic_word ++ le_bytes 4 3 ++ flat_map (le_bytes 4) [4; 1; 5; 8; 0; 4; 3; 6; 7; 6] ++ [1; 2] in
  (forall b, In b file -> 0 <= b < 256) /\ exists file', read file = Ok ([(4, [(6, 4)])], [(4, [(6, 4); (7, 4); (6, 4)])]) /\ write_binary [(4, [(6, 4)])] [(4, [(6, 4); (7, 4); (6, 4)])] = (file', Ok tt) /\ read file' = Ok ([(4, [(6, 4)])], [(4, [(6, 4)])]).
Proof. cbv zeta. split; [intros b I; vm_compute in I; repeat (destruct I as [<-|I]; [lia|]); destruct I|]. eexists. split; [vm_compute; reflexivity|]. split; [vm_compute; reflexivity|vm_compute; reflexivity]. Qed.
