(** Lemmas about solution files. *)
From Verif Require Import ListLemmas IoModel IoSpec.
From Coq Require Import ZifyBool ZifyNat Permutation Sorted.

Lemma le_length n : forall v, length (le_bytes n v) = n.
Proof. induction n as [|n IH]; intros v; cbn [le_bytes length]; [reflexivity|f_equal; apply IH]. Qed.
Lemma le_byte n : forall v b, In b (le_bytes n v) -> 0 <= b < 256.
Proof. induction n as [|n IH]; intros v b; cbn [le_bytes In]; [tauto|]. intros [<-|H]; [apply Z.mod_pos_bound; lia|eapply IH, H]. Qed.
Lemma le_inverse n : forall v, 0 <= v < 2 ^ (8 * Z.of_nat n) -> of_le_bytes (le_bytes n v) = v.
Proof. induction n as [|n IH]; intros v H; [cbn in *; lia|]. cbn [le_bytes]. unfold of_le_bytes. cbn [fold_right]. fold (of_le_bytes (le_bytes n (v / 256))).
  rewrite IH; [pose proof (Z.div_mod v 256); lia|]. replace (8 * Z.of_nat (S n)) with (8 + 8 * Z.of_nat n) in H by lia. rewrite Z.pow_add_r in H by lia.
  change (2 ^ 8) with 256 in H. split; [apply Z.div_pos; lia|apply Z.div_lt_upper_bound; lia]. Qed.

Lemma get_app n v rest : 0 <= v < 2 ^ (8 * Z.of_nat n) -> get n (le_bytes n v ++ rest) = Ok (v, rest).
Proof. intros H. unfold get. rewrite firstn_app, le_length, Nat.sub_diag. cbn [firstn]. rewrite app_nil_r, firstn_all2 by (rewrite le_length; lia).
  rewrite le_length, Nat.eqb_refl, le_inverse by exact H. rewrite skipn_app, le_length, Nat.sub_diag, skipn_all2 by (rewrite le_length; lia). reflexivity. Qed.
Lemma get_more n f v r t : get n f = Ok (v, r) -> get n (f ++ t) = Ok (v, r ++ t).
Proof. unfold get. destruct (length (firstn n f) =? n)%nat eqn:E; [|discriminate]. intros H. injection H as <- <-. apply Nat.eqb_eq in E. rewrite firstn_length in E.
  rewrite firstn_app, skipn_app. replace (n - length f)%nat with 0%nat by lia. cbn [firstn skipn]. rewrite app_nil_r, firstn_length. replace (Nat.min n (length f) =? n)%nat with true by lia. reflexivity. Qed.
Lemma get_errors n f e : get n f = Err e -> e = StructError.
Proof. unfold get. destruct (_ =? _)%nat; congruence. Qed.
Lemma get_short n f : (length f < n)%nat -> get n f = Err StructError.
Proof. intros H. unfold get. rewrite firstn_length. replace (Nat.min n (length f) =? n)%nat with false by lia. reflexivity. Qed.

Lemma pack_ok n v : 0 <= v < 2 ^ (8 * Z.of_nat n) -> pack n v = Ok (le_bytes n v).
Proof. intros H. unfold pack. replace ((0 <=? v) && (v <? 2 ^ (8 * Z.of_nat n))) with true by lia. reflexivity. Qed.
Lemma put_cases n v : (0 <= v < 2 ^ (8 * Z.of_nat n) /\ put n v = (le_bytes n v, Ok tt)) \/ (~ 0 <= v < 2 ^ (8 * Z.of_nat n) /\ put n v = ([], Err StructError)).
Proof. unfold put, pack. destruct ((0 <=? v) && (v <? 2 ^ (8 * Z.of_nat n))) eqn:E; [left|right]; (split; [lia|reflexivity]). Qed.
Lemma put_ok n v : 0 <= v < 2 ^ (8 * Z.of_nat n) -> put n v = (le_bytes n v, Ok tt).
Proof. destruct (put_cases n v) as [[_ H]|[H _]]; [auto|intros; contradiction]. Qed.

Lemma before_ok w w' b u : before w w' = (b, Ok u) -> exists b1 b2 u1, w = (b1, Ok u1) /\ w' = (b2, Ok u) /\ b = b1 ++ b2.
Proof. unfold before. destruct w as [b1 [u1|e]], w' as [b2 r2]; cbn [fst snd]; intros H; injection H as H1 H2; [|discriminate]. exists b1, b2, u1. split; [reflexivity|]. split; [congruence|auto]. Qed.
Lemma before_err w w' b e : before w w' = (b, Err e) -> w = (b, Err e) \/ exists b1 b2 u1, w = (b1, Ok u1) /\ w' = (b2, Err e) /\ b = b1 ++ b2.
Proof. unfold before. destruct w as [b1 [u1|e1]], w' as [b2 r2]; cbn [fst snd]; intros H; injection H as H1 H2; [|left; congruence]. right. exists b1, b2, u1. split; [reflexivity|]. split; [congruence|auto]. Qed.
Lemma before_run b w' : before (b, Ok tt) w' = (b ++ fst w', snd w').
Proof. reflexivity. Qed.

Lemma puts_ok l : (forall v, In v l -> fits32 v) -> puts l = (flat_map (le_bytes 4) l, Ok tt).
Proof. induction l as [|v l IH]; intros H; [reflexivity|]. cbn [puts flat_map]. rewrite put_ok by (apply H; left; reflexivity). rewrite before_run, IH by (intros; apply H; right; assumption). reflexivity. Qed.
Lemma puts_fits l b u : puts l = (b, Ok u) -> forall v, In v l -> fits32 v.
Proof. revert b u. induction l as [|v l IH]; intros b u H x Hx; [destruct Hx|]. cbn [puts] in H. apply before_ok in H. destruct H as (b1 & b2 & u1 & E1 & E2 & _). destruct Hx as [<-|Hx]; [|eapply IH; eauto].
  destruct (put_cases 4 v) as [[F _]|[_ F]]; [exact F|congruence]. Qed.
Lemma read_insts_app l : forall addr rest, (forall v, In v l -> fits32 v) ->
  read_insts (length l) addr (flat_map (le_bytes 4) l ++ rest) = Ok (map (fun e => (e, addr)) l, rest).
Proof. induction l as [|v l IH]; intros addr rest H; [reflexivity|]. cbn [length read_insts flat_map map]. rewrite <- app_assoc, get_app by (apply H; left; reflexivity). cbn [bind].
  rewrite IH by (intros; apply H; right; assumption). reflexivity. Qed.
Lemma read_insts_failed l : forall addr b e, puts l = (b, Err e) -> read_insts (length l) addr b = Err StructError.
Proof. induction l as [|v l IH]; intros addr b e H; [discriminate|]. cbn [puts] in H. cbn [length read_insts]. destruct (put_cases 4 v) as [[F E]|[_ E]]; rewrite E in H.
  - rewrite before_run in H. apply pair_equal_spec in H. destruct H as [<- H]. rewrite get_app by exact F. cbn [bind]. destruct (puts l) as [b2 r]. cbn [fst snd] in *. subst r. rewrite (IH addr b2 e eq_refl). reflexivity.
  - cbn in H. injection H as <- _. reflexivity. Qed.

Lemma find_spec original k : forall v index, find_original original k v = Ok index ->
  (index = length v /\ (v = [] \/ exists o others, dget original k = Some (o :: others) /\ forall c, In c v -> encoding c <> encoding o)) \/
  (exists pre o' post, splits original k v pre o' post /\ index = length pre).
Proof. induction v as [|c v IH]; intros index H; cbn [find_original] in H; [left; split; [injection H as <-; reflexivity|left; reflexivity]|].
  unfold dget_r in H. destruct (dget original k) as [l|] eqn:G; cbn [bind] in H; [|discriminate]. unfold nth_r in H. destruct l as [|o l]; cbn [nth_error bind] in H; [discriminate|].
  destruct (encoding c =? encoding o) eqn:E.
  - injection H as <-. right. exists [], c, v. split; [|reflexivity]. exists o, l. split; [exact G|]. split; [reflexivity|]. split; [lia|intros ? []].
  - destruct (find_original original k v) as [j|] eqn:F; cbn [rmap] in H; [|discriminate]. injection H as <-. destruct (IH j eq_refl) as [[-> X]|(pre & o' & post & S & ->)].
    + left. split; [reflexivity|]. right. exists o, l. split; [reflexivity|]. intros x [<-|I]; [lia|]. destruct X as [->|(o2 & l2 & X & Y)]; [destruct I|]. assert (o2 = o) as -> by congruence. apply Y, I.
    + right. destruct S as (o2 & l2 & S1 & S2 & S3 & S4). assert (o2 = o) as -> by congruence. exists (c :: pre), o', post. split; [|reflexivity]. exists o, l. split; [exact G|]. split; [rewrite S2; reflexivity|]. split; [exact S3|].
      intros x [<-|I]; [lia|apply S4, I]. Qed.
Lemma find_errors original k : forall v e, find_original original k v = Err e -> v <> [] /\ forall o others, dget original k <> Some (o :: others).
Proof. induction v as [|c v IH]; intros e H; cbn [find_original] in H; [discriminate|]. split; [discriminate|]. intros o others G. unfold dget_r in H. rewrite G in H. cbn [bind nth_r nth_error] in H.
  unfold nth_r in H. cbn [nth_error bind] in H. destruct (encoding c =? encoding o); [discriminate|]. destruct (find_original original k v) as [|e'] eqn:F; cbn [rmap] in H; [discriminate|]. destruct (IH e' eq_refl) as [_ X]. apply (X o others G). Qed.
Lemma find_splits original k v pre o' post : splits original k v pre o' post -> find_original original k v = Ok (length pre).
Proof. intros (o & l & G & -> & E & N). induction pre as [|c pre IH]; cbn [app find_original length]; unfold dget_r; rewrite G; cbn [bind]; unfold nth_r; cbn [nth_error bind].
  - replace (encoding o' =? encoding o) with true by lia. reflexivity.
  - assert (X : encoding c <> encoding o) by (apply N; left; reflexivity). replace (encoding c =? encoding o) with false by lia. rewrite IH by (intros; apply N; right; assumption). reflexivity. Qed.

(** One address. *)
Definition entry_bytes (k : Z) (l : list Z) : list Z := le_bytes 4 k ++ le_bytes 4 (Z.of_nat (length l)) ++ flat_map (le_bytes 4) l.
Lemma firstn_split {A} (pre : list A) x post : firstn (S (length pre)) (pre ++ x :: post) = pre ++ [x].
Proof. induction pre as [|a pre IH]; cbn [length app firstn]; [reflexivity|]. cbn [firstn] in IH. rewrite IH. reflexivity. Qed.
Lemma write_entry_ok original k v pre o' post : splits original k v pre o' post -> fits32 k -> (forall c, In c (pre ++ [o']) -> fits32 (encoding c)) -> Z.of_nat (length pre) + 1 < 2 ^ 32 ->
  write_entry original k v = (entry_bytes k (map encoding (pre ++ [o'])), Ok tt).
Proof. intros S K F L. unfold write_entry, entry_bytes. rewrite put_ok by exact K. rewrite (find_splits _ _ _ _ _ _ S). destruct S as (o & l & _ & -> & _).
  replace (length pre =? length (pre ++ o' :: post))%nat with false by (rewrite app_length; cbn [length]; lia). rewrite firstn_split. rewrite put_ok by (split; [lia|exact L]). rewrite !before_run. cbn [fst snd].
  rewrite puts_ok by (intros x Hx; apply in_map_iff in Hx; destruct Hx as (c & <- & Hc); apply F, Hc). cbn [fst snd]. rewrite map_length, app_length. cbn [length]. replace (Z.of_nat (length pre + 1)) with (Z.of_nat (length pre) + 1) by lia. reflexivity. Qed.
Lemma write_entry_inv original k v b u : write_entry original k v = (b, Ok u) -> writable original (k, v).
Proof. unfold write_entry. intros H. apply before_ok in H. destruct H as (b1 & b2 & u1 & E1 & E2 & _). destruct (put_cases 4 k) as [[K _]|[_ X]]; [|congruence].
  destruct (find_original original k v) as [index|] eqn:F; [|discriminate]. destruct (index =? length v)%nat eqn:Ei; [discriminate|]. apply before_ok in E2. destruct E2 as (b3 & b4 & u2 & E3 & E4 & _).
  destruct (find_spec original k v index F) as [[-> _]|(pre & o' & post & S & ->)]; [lia|]. exists pre, o', post. split; [exact S|]. split; [exact K|]. pose proof S as (o & l & _ & Ev & _). rewrite Ev, firstn_split in E4. split.
  - intros c Hc. eapply puts_fits; [exact E4|]. apply in_map, Hc.
  - destruct (put_cases 4 (Z.of_nat (length pre) + 1)) as [[P _]|[_ X]]; [change (8 * Z.of_nat 4) with 32 in P; lia|congruence]. Qed.
Lemma read_entry n k l rest orig prog : fits32 k -> (forall e, In e l -> fits32 e) -> Z.of_nat (length l) < 2 ^ 32 -> l <> [] ->
  read_entries (S n) orig prog (entry_bytes k l ++ rest) = read_entries n (dset orig k [(last l 0, k)]) (dset prog k (map (fun e => (e, k)) l)) rest.
Proof. intros K F L N. cbn [read_entries]. unfold entry_bytes. rewrite <- !app_assoc. rewrite get_app by exact K. cbn [bind]. rewrite get_app by (split; [lia|exact L]). cbn [bind].
  assert (Lp : (0 < length l)%nat) by (destruct l; [contradiction|cbn; lia]). replace (0 <? Z.of_nat (length l)) with true by lia. rewrite Nat2Z.id, read_insts_app by exact F. cbn [bind].
  destruct (exists_last N) as (l0 & x & ->). unfold nth_r. rewrite map_app, app_length, last_last. cbn [length map]. rewrite nth_error_app2 by (rewrite map_length; lia). rewrite map_length. replace (length l0 + 1 - 1 - length l0)%nat with 0%nat by lia. reflexivity. Qed.
Lemma read_entry_failed n original k v b e orig prog : write_entry original k v = (b, Err e) -> read_entries (S n) orig prog b = Err StructError.
Proof. unfold write_entry. intros H. destruct (put_cases 4 k) as [[K E]|[_ E]]; rewrite E in H; [|cbn in H; injection H as <- _; reflexivity]. rewrite before_run in H. apply pair_equal_spec in H. destruct H as [<- H]. cbn [read_entries]. rewrite get_app by exact K. cbn [bind].
  destruct (find_original original k v) as [index|] eqn:F; [|reflexivity]. destruct (index =? length v)%nat eqn:Ei; [reflexivity|].
  destruct (put_cases 4 (Z.of_nat index + 1)) as [[P E2]|[_ E2]]; rewrite E2 in *; [|reflexivity]. rewrite before_run in *. cbn [fst snd] in *. rewrite get_app by exact P. cbn [bind]. replace (0 <? Z.of_nat index + 1) with true by lia.
  destruct (puts (map encoding (firstn (S index) v))) as [b2 r] eqn:Ep. cbn [fst snd] in *. subst r. pose proof (read_insts_failed _ k b2 e Ep) as R. rewrite map_length, firstn_length in R.
  destruct (le_lt_dec (S index) (length v)) as [L|L].
  - replace (Nat.min (S index) (length v)) with (Z.to_nat (Z.of_nat index + 1)) in R by lia. rewrite R. reflexivity.
  - exfalso. destruct (find_spec original k v index F) as [[-> _]|(pre & o' & post & (o & l & _ & -> & _) & ->)]; [lia|rewrite app_length in *; cbn [length] in *; lia]. Qed.

Lemma write_entries_ok original : forall program, Forall (writable original) program -> exists b entries,
  write_entries original program = (b, Ok tt) /\
  Forall2 (fun kv kl => exists pre o' post, splits original (fst kv) (snd kv) pre o' post /\ kl = (fst kv, map encoding (pre ++ [o']))) program entries /\
  b = flat_map (fun kl => entry_bytes (fst kl) (snd kl)) entries /\
  Forall (fun kl => fits32 (fst kl) /\ (forall e, In e (snd kl) -> fits32 e) /\ Z.of_nat (length (snd kl)) < 2 ^ 32 /\ snd kl <> []) entries.
Proof. induction program as [|[k v] p IH]; intros H; [exists [], []; split; [reflexivity|]; split; [constructor|]; split; [reflexivity|constructor]|].
  inversion H as [|? ? (pre & o' & post & S & K & F & L) H']; subst. cbn [fst snd] in *. destruct (IH H') as (b & es & E & F2 & Eb & Fo). cbn [write_entries]. rewrite (write_entry_ok original k v pre o' post S K F L), E, before_run. cbn [fst snd].
  eexists _, ((k, map encoding (pre ++ [o'])) :: es). split; [reflexivity|]. split; [constructor; [exists pre, o', post; auto|exact F2]|]. split; [cbn [flat_map fst snd]; rewrite Eb; reflexivity|].
  constructor; [|exact Fo]. cbn [fst snd]. split; [exact K|]. split; [intros e He; apply in_map_iff in He; destruct He as (c & <- & Hc); apply F, Hc|]. split; [rewrite map_length, app_length; cbn [length]; lia|]. destruct pre; discriminate. Qed.
Lemma write_entries_inv original : forall program b u, write_entries original program = (b, Ok u) -> Forall (writable original) program.
Proof. induction program as [|[k v] p IH]; intros b u H; [constructor|]. cbn [write_entries] in H. apply before_ok in H. destruct H as (b1 & b2 & u1 & E1 & E2 & _). constructor; [eapply write_entry_inv, E1|eapply IH, E2]. Qed.

Lemma dset_fresh {A} (d : dict A) k v : ~ In k (dkeys d) -> dset d k v = d ++ [(k, v)].
Proof. induction d as [|[k' a] d IH]; intros H; [reflexivity|]. cbn in H. cbn [dset]. destruct (k =? k') eqn:E; [exfalso; apply H; left; lia|]. rewrite IH by (intros X; apply H; right; exact X). reflexivity. Qed.

Lemma read_entries_ok : forall entries orig prog rest,
  Forall (fun kl => fits32 (fst kl) /\ (forall e, In e (snd kl) -> fits32 e) /\ Z.of_nat (length (snd kl)) < 2 ^ 32 /\ snd kl <> []) entries ->
  NoDup (dkeys orig ++ map fst entries) -> dkeys prog = dkeys orig ->
  read_entries (length entries) orig prog (flat_map (fun kl => entry_bytes (fst kl) (snd kl)) entries ++ rest) =
  Ok (orig ++ map (fun kl => (fst kl, [(last (snd kl) 0, fst kl)])) entries, prog ++ map (fun kl => (fst kl, map (fun e => (e, fst kl)) (snd kl))) entries, rest).
Proof. induction entries as [|[k l] es IH]; intros orig prog rest H N K; [cbn; rewrite !app_nil_r; reflexivity|]. inversion H as [|? ? (F1 & F2 & F3 & F4) H']; subst. cbn [fst snd flat_map length map] in *.
  rewrite <- app_assoc, read_entry by assumption. assert (Nk : ~ In k (dkeys orig)). { apply NoDup_app_elim in N. destruct N as (_ & _ & N). intros X. apply (N k X). left; reflexivity. }
  rewrite !dset_fresh by (try rewrite K; exact Nk). rewrite IH.
  - rewrite <- !app_assoc. reflexivity.
  - exact H'.
  - unfold dkeys in *. rewrite map_app. cbn [map fst]. rewrite <- app_assoc. exact N.
  - unfold dkeys in *. rewrite !map_app, K. reflexivity. Qed.

Lemma read_insts_more n : forall addr f l r t, read_insts n addr f = Ok (l, r) -> read_insts n addr (f ++ t) = Ok (l, r ++ t).
Proof. induction n as [|n IH]; intros addr f l r t H; cbn [read_insts] in *; [injection H as <- <-; reflexivity|]. destruct (get 4 f) as [[e f1]|] eqn:E; cbn [bind] in H; [|discriminate]. rewrite (get_more _ _ _ _ t E). cbn [bind].
  destruct (read_insts n addr f1) as [[l1 f2]|] eqn:E1; cbn [bind] in H; [|discriminate]. rewrite (IH _ _ _ _ t E1). cbn [bind]. injection H as <- <-. reflexivity. Qed.
Lemma read_insts_errors n : forall addr f e, read_insts n addr f = Err e -> e = StructError.
Proof. induction n as [|n IH]; intros addr f e H; cbn [read_insts] in *; [discriminate|]. destruct (get 4 f) as [[x f1]|] eqn:E; cbn [bind] in H; [|apply get_errors in E; congruence].
  destruct (read_insts n addr f1) as [[l1 f2]|] eqn:E1; cbn [bind] in H; [discriminate|]. apply IH in E1. congruence. Qed.
Lemma read_insts_length n : forall addr f l r, read_insts n addr f = Ok (l, r) -> length l = n.
Proof. induction n as [|n IH]; intros addr f l r H; cbn [read_insts] in *; [injection H as <- _; reflexivity|]. destruct (get 4 f) as [[e f1]|] eqn:E; cbn [bind] in H; [|discriminate].
  destruct (read_insts n addr f1) as [[l1 f2]|] eqn:E1; cbn [bind] in H; [|discriminate]. injection H as <- _. cbn [length]. f_equal. eapply IH, E1. Qed.
Lemma read_entries_more n : forall o p f o' p' r t, read_entries n o p f = Ok (o', p', r) -> read_entries n o p (f ++ t) = Ok (o', p', r ++ t).
Proof. induction n as [|n IH]; intros o p f o' p' r t H; cbn [read_entries] in *; [injection H as <- <- <-; reflexivity|]. destruct (get 4 f) as [[a f1]|] eqn:E; cbn [bind] in H; [|discriminate]. rewrite (get_more _ _ _ _ t E). cbn [bind].
  destruct (get 4 f1) as [[c f2]|] eqn:E1; cbn [bind] in H; [|discriminate]. rewrite (get_more _ _ _ _ t E1). cbn [bind]. destruct (0 <? c); [|apply IH, H].
  destruct (read_insts (Z.to_nat c) a f2) as [[l f3]|] eqn:E2; cbn [bind] in H; [|discriminate]. rewrite (read_insts_more _ _ _ _ _ t E2). cbn [bind]. destruct (nth_r l _); cbn [bind] in *; [|discriminate]. apply IH, H. Qed.
Lemma read_entries_errors n : forall o p f e, read_entries n o p f = Err e -> e = StructError.
Proof. induction n as [|n IH]; intros o p f e H; cbn [read_entries] in *; [discriminate|]. destruct (get 4 f) as [[a f1]|] eqn:E; cbn [bind] in H; [|apply get_errors in E; congruence].
  destruct (get 4 f1) as [[c f2]|] eqn:E1; cbn [bind] in H; [|apply get_errors in E1; congruence]. destruct (0 <? c) eqn:Ec; [|apply IH in H; exact H].
  destruct (read_insts (Z.to_nat c) a f2) as [[l f3]|] eqn:E2; cbn [bind] in H; [|apply read_insts_errors in E2; congruence]. apply read_insts_length in E2. unfold nth_r in H. destruct (nth_error l (Z.to_nat c - 1)) eqn:En; cbn [bind] in H; [apply IH in H; exact H|].
  apply nth_error_None in En. lia. Qed.
Lemma read_file_more f o p r t : read_file f = Ok (o, p, r) -> read_file (f ++ t) = Ok (o, p, r ++ t).
Proof. unfold read_file. intros H. destruct (get 8 f) as [[m f1]|] eqn:E; cbn [bind] in H; [|discriminate]. rewrite (get_more _ _ _ _ t E). cbn [bind]. destruct (negb (m =? magic_word)); [discriminate|].
  destruct (get 4 f1) as [[c f2]|] eqn:E1; cbn [bind] in H; [|discriminate]. rewrite (get_more _ _ _ _ t E1). cbn [bind]. apply read_entries_more, H. Qed.

Lemma read_entries_failed original : forall program b e orig prog, write_entries original program = (b, Err e) -> read_entries (length program) orig prog b = Err StructError.
Proof. induction program as [|[k v] p IH]; intros b e orig prog H; [discriminate|]. cbn [write_entries length] in *. apply before_err in H. destruct H as [H|(b1 & b2 & u & E1 & E2 & ->)]; [eapply read_entry_failed, H|].
  destruct (write_entry_inv _ _ _ _ _ E1) as (pre & o' & post & S & K & F & L). cbn [fst snd] in *. pose proof (write_entry_ok original k v pre o' post S K F L) as E. rewrite E1 in E. apply pair_equal_spec in E. destruct E as [-> _].
  rewrite read_entry; [eapply IH, E2|exact K| | |destruct pre; discriminate].
  - intros x Hx. apply in_map_iff in Hx. destruct Hx as (c & <- & Hc). apply F, Hc.
  - rewrite map_length, app_length. cbn [length]. lia. Qed.
