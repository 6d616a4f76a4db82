(** C45 - C47: binary solution files.  C71: program conversions. *)
From Verif Require Import ListLemmas IoModel IoSpec IoProofs.
From Coq Require Import ZifyBool ZifyNat Permutation Sorted.

Lemma forall2_len {A B} (R : A -> B -> Prop) l l' : Forall2 R l l' -> length l = length l'.
Proof. induction 1; cbn [length]; congruence. Qed.
Lemma write_binary_ok original program : Forall (writable original) program -> Z.of_nat (length program) < 2 ^ 32 -> exists entries,
  Forall2 (fun kv kl => exists pre o' post, splits original (fst kv) (snd kv) pre o' post /\ kl = (fst kv, map encoding (pre ++ [o']))) program entries /\
  Forall (fun kl => fits32 (fst kl) /\ (forall e, In e (snd kl) -> fits32 e) /\ Z.of_nat (length (snd kl)) < 2 ^ 32 /\ snd kl <> []) entries /\
  write_binary original program = (le_bytes 8 magic_word ++ le_bytes 4 (Z.of_nat (length program)) ++ flat_map (fun kl => entry_bytes (fst kl) (snd kl)) entries, Ok tt).
Proof. intros W L. destruct (write_entries_ok original program W) as (b & es & E & F2 & -> & Fo). exists es. split; [exact F2|]. split; [exact Fo|]. unfold write_binary.
  rewrite put_ok by (unfold magic_word; change (8 * Z.of_nat 8) with 64; lia). rewrite put_ok by (change (8 * Z.of_nat 4) with 32; lia). rewrite !before_run, E. cbn [fst snd]. reflexivity. Qed.
Lemma read_written original program es rest : NoDup (dkeys program) -> Z.of_nat (length program) < 2 ^ 32 ->
  Forall2 (fun kv kl => exists pre o' post, splits original (fst kv) (snd kv) pre o' post /\ kl = (fst kv, map encoding (pre ++ [o']))) program es ->
  Forall (fun kl => fits32 (fst kl) /\ (forall e, In e (snd kl) -> fits32 e) /\ Z.of_nat (length (snd kl)) < 2 ^ 32 /\ snd kl <> []) es ->
  read_file ((le_bytes 8 magic_word ++ le_bytes 4 (Z.of_nat (length program)) ++ flat_map (fun kl => entry_bytes (fst kl) (snd kl)) es) ++ rest) =
  Ok (map (fun kl => (fst kl, [(last (snd kl) 0, fst kl)])) es, map (fun kl => (fst kl, map (fun e => (e, fst kl)) (snd kl))) es, rest).
Proof. intros N L F2 Fo. unfold read_file. rewrite <- !app_assoc. rewrite get_app by (unfold magic_word; change (8 * Z.of_nat 8) with 64; lia). cbn [bind]. rewrite Z.eqb_refl. cbn [negb].
  rewrite get_app by (change (8 * Z.of_nat 4) with 32; lia). cbn [bind]. rewrite Nat2Z.id. assert (Le : length program = length es) by (eapply forall2_len, F2). rewrite Le.
  rewrite read_entries_ok; [reflexivity|exact Fo| |reflexivity]. cbn [dkeys map app]. assert (X : map fst es = dkeys program); [|rewrite X; exact N].
  clear - F2. unfold dkeys. induction F2 as [|kv kl p es (pre & o' & post & _ & ->) F IH]; [reflexivity|]. cbn [map fst]. rewrite IH. reflexivity. Qed.

(** C45.  The original is a dictionary from addresses to instruction lists whose
    first element counts. *)
Theorem C45_round_trip : forall original program, NoDup (dkeys program) -> Forall (writable original) program -> Z.of_nat (length program) < 2 ^ 32 ->
  exists file original' program', write_binary original program = (file, Ok tt) /\ read file = Ok (original', program') /\
    length original' = length program /\ length program' = length program /\
    forall n kv, nth_error program n = Some kv -> exists kvo kvp, nth_error original' n = Some kvo /\ nth_error program' n = Some kvp /\ entry_back original kv kvo kvp.
Proof. intros original program N W L. destruct (write_binary_ok original program W L) as (es & F2 & Fo & E). eexists _, _, _. split; [exact E|].
  pose proof (read_written original program es [] N L F2 Fo) as R. rewrite app_nil_r in R. unfold read. rewrite R. cbn [bind]. split; [reflexivity|].
  assert (Le : length program = length es) by (eapply forall2_len, F2). rewrite !map_length. split; [congruence|]. split; [congruence|].
  intros n kv Hn. rewrite !nth_error_map. clear - F2 Hn. revert n Hn. induction F2 as [|kv0 kl p es (pre & o' & post & S & ->) F IH]; intros n Hn; destruct n as [|n]; cbn [nth_error] in *; try discriminate; [|apply IH, Hn].
  injection Hn as <-. cbn [option_map]. eexists _, _. split; [reflexivity|]. split; [reflexivity|]. exists pre, o', post. split; [exact S|]. cbn [fst snd]. split; [rewrite map_map; reflexivity|].
  rewrite map_app. cbn [map]. rewrite last_last. reflexivity. Qed.
Print Assumptions C45_round_trip.
(** The original given as a list: the last instruction at each address counts. *)
Lemma list_to_dict_get l : forall d k, dget (fold_left (fun d i => dset d (address i) [i]) l d) k =
  match find (fun i => address i =? k) (rev l) with Some i => Some [i] | None => dget d k end.
Proof. induction l as [|i l IH]; intros d k; [reflexivity|]. cbn [fold_left rev]. rewrite IH. 
  assert (X : forall (a b : list inst), find (fun i => address i =? k) (a ++ b) = match find (fun i => address i =? k) a with Some x => Some x | None => find (fun i => address i =? k) b end).
  { induction a as [|y a IHa]; intros b; [reflexivity|]. cbn [app find]. destruct (address y =? k); [reflexivity|apply IHa]. }
  rewrite X. destruct (find _ (rev l)); [reflexivity|]. cbn [find]. rewrite dget_dset, Z.eqb_sym. destruct (address i =? k); reflexivity. Qed.
Theorem C45_list_original : forall l k o, dget (list_to_dict l) k = Some o <->
  exists i l1 l2, o = [i] /\ l = l1 ++ i :: l2 /\ address i = k /\ forall j, In j l2 -> address j <> k.
Proof. intros l k o. unfold list_to_dict. rewrite list_to_dict_get. cbn [dget].
  assert (Y : forall l, match find (fun i => address i =? k) l with Some i => exists l1 l2, l = l1 ++ i :: l2 /\ address i = k /\ forall j, In j l1 -> address j <> k | None => forall j, In j l -> address j <> k end).
  { clear. induction l as [|y l IH]; cbn [find]; [intros j []|]. destruct (address y =? k) eqn:E; [exists [], l; split; [reflexivity|]; split; [lia|intros j []]|].
    destruct (find _ l) as [i|]; [destruct IH as (l1 & l2 & -> & A & B); exists (y :: l1), l2; split; [reflexivity|]; split; [exact A|]; intros j [<-|J]; [lia|apply B, J]|]. intros j [<-|J]; [lia|apply IH, J]. }
  specialize (Y (rev l)). destruct (find _ (rev l)) as [i|].
  - destruct Y as (l1 & l2 & E & A & B). assert (El : l = rev l2 ++ i :: rev l1). { rewrite <- (rev_involutive l), E, rev_app_distr. cbn [rev]. rewrite <- app_assoc. reflexivity. }
    split.
    + intros H. injection H as <-. exists i, (rev l2), (rev l1). split; [reflexivity|]. split; [exact El|]. split; [exact A|]. intros j J. apply B, in_rev, J.
    + intros (i' & m1 & m2 & -> & E' & A' & B'). f_equal. f_equal.
      assert (X : forall (m1 a1 m2 a2 : list inst) (x y : inst), m1 ++ x :: m2 = a1 ++ y :: a2 -> address x = k -> address y = k -> (forall j, In j m2 -> address j <> k) -> (forall j, In j a2 -> address j <> k) -> x = y).
      { clear. induction m1 as [|z m1 IH]; intros [|w a1] m2 a2 x y E X Y P Q; cbn [app] in E; injection E as E1 E2; [exact E1|exfalso|exfalso|].
        - apply (P y); [rewrite E2; apply in_app_iff; right; left; reflexivity|exact Y].
        - apply (Q x); [rewrite <- E2; apply in_app_iff; right; left; reflexivity|exact X].
        - eapply IH; eauto. }
      eapply (X (rev l2) m1 (rev l1) m2); [congruence|exact A|exact A'|intros j J; apply B, in_rev, J|exact B'].
  - split; [discriminate|]. intros (i & l1 & l2 & _ & -> & A & _). exfalso. apply (Y i); [|exact A]. apply -> in_rev. apply in_app_iff. right; left; reflexivity. Qed.
Print Assumptions C45_list_original.
Definition io_orig : dict (list inst) := [(8, [(300, 8)]); (4, [(70000, 4); (5, 4)])].
Definition io_prog : dict (list inst) := [(4, [(1, 4); (70000, 4); (70000, 4); (2 ^ 40, 4)]); (8, [(300, 8)])].
Example C45_example : Forall (writable io_orig) io_prog /\ read (fst (write_binary io_orig io_prog)) = Ok ([(4, [(70000, 4)]); (8, [(300, 8)])], [(4, [(1, 4); (70000, 4)]); (8, [(300, 8)])]).
Proof. split; [|vm_compute; reflexivity]. constructor; [|constructor; [|constructor]].
  - exists [(1, 4)], (70000, 4), [(70000, 4); (2 ^ 40, 4)]. cbn [fst snd]. split; [exists (70000, 4), [(5, 4)]; split; [reflexivity|]; split; [reflexivity|]; split; [reflexivity|intros c [<-|[]]; discriminate]|].
    split; [split; [discriminate|reflexivity]|]. split; [|reflexivity]. intros c [<-|[<-|[]]]; (split; [discriminate|reflexivity]).
  - exists [], (300, 8), []. cbn [fst snd]. split; [exists (300, 8), []; split; [reflexivity|]; split; [reflexivity|]; split; [reflexivity|intros c []]|].
    split; [split; [discriminate|reflexivity]|]. split; [|reflexivity]. intros c [<-|[]]; (split; [discriminate|reflexivity]). Qed.

(** C46. *)
Theorem C46_truncated : forall original program file, NoDup (dkeys program) -> write_binary original program = (file, Ok tt) ->
  (forall cut, strict_prefix cut file -> read cut = Err StructError) /\
  (forall rest, read (file ++ rest) = read file).
Proof. intros original program file N H. assert (W : Forall (writable original) program /\ Z.of_nat (length program) < 2 ^ 32).
  { unfold write_binary in H. apply before_ok in H. destruct H as (b1 & b2 & u & _ & H & _). apply before_ok in H. destruct H as (b3 & b4 & u2 & E & H & _). split; [eapply write_entries_inv, H|].
    destruct (put_cases 4 (Z.of_nat (length program))) as [[P _]|[_ X]]; [change (8 * Z.of_nat 4) with 32 in P; lia|congruence]. }
  destruct W as [W L]. destruct (write_binary_ok original program W L) as (es & F2 & Fo & E). rewrite E in H. apply pair_equal_spec in H. destruct H as [<- _].
  pose proof (fun rest => read_written original program es rest N L F2 Fo) as R.
  set (file := le_bytes 8 magic_word ++ le_bytes 4 (Z.of_nat (length program)) ++ flat_map (fun kl => entry_bytes (fst kl) (snd kl)) es) in *. split.
  - intros cut (t & Nt & Et). unfold read. destruct (read_file cut) as [[[o p] r]|e] eqn:Ec; cbn [bind].
    + exfalso. apply (read_file_more _ _ _ _ t) in Ec. specialize (R []). rewrite app_nil_r, Et in R. rewrite R in Ec. injection Ec as _ _ Ec. apply Nt. symmetry in Ec. apply app_eq_nil in Ec. apply Ec.
    + f_equal. unfold read_file in Ec. destruct (get 8 cut) as [[m f1]|] eqn:E1; cbn [bind] in Ec; [|apply get_errors in E1; congruence].
      assert (m = magic_word) as ->.
      { pose proof (get_more _ _ _ _ t E1) as G. rewrite <- Et in G. unfold file in G. rewrite get_app in G by (unfold magic_word; change (8 * Z.of_nat 8) with 64; lia). injection G as G _. congruence. }
      rewrite Z.eqb_refl in Ec. cbn [negb] in Ec. destruct (get 4 f1) as [[c f2]|] eqn:E2; cbn [bind] in Ec; [|apply get_errors in E2; congruence]. eapply read_entries_errors, Ec.
  - intros rest. unfold read. rewrite R. specialize (R []). rewrite app_nil_r in R. rewrite R. reflexivity. Qed.
Print Assumptions C46_truncated.
(** Other magic words, and files left by a write_binary that raised. *)
Theorem C46_wrong_magic : forall file, (8 <= length file)%nat -> of_le_bytes (firstn 8 file) <> 0xA0C1E2F3A4C5E6F7 -> read file = Err RuntimeError.
Proof. intros file L H. change 0xA0C1E2F3A4C5E6F7 with magic_word in H. unfold read, read_file, get. rewrite firstn_length. replace (Nat.min 8 (length file) =? 8)%nat with true by lia. cbn [bind]. replace (of_le_bytes (firstn 8 file) =? magic_word) with false by lia. reflexivity. Qed.
Print Assumptions C46_wrong_magic.
Theorem C46_failed_write : forall original program file e, write_binary original program = (file, Err e) -> read file = Err StructError.
Proof. intros original program file e H. unfold write_binary in H. rewrite put_ok in H by (unfold magic_word; change (8 * Z.of_nat 8) with 64; lia). rewrite before_run in H. apply pair_equal_spec in H. destruct H as [<- H].
  unfold read, read_file. rewrite get_app by (unfold magic_word; change (8 * Z.of_nat 8) with 64; lia). cbn [bind]. rewrite Z.eqb_refl. cbn [negb].
  destruct (put_cases 4 (Z.of_nat (length program))) as [[P E]|[_ E]]; rewrite E in *; [|reflexivity]. rewrite before_run in *. cbn [fst snd] in *. rewrite get_app by exact P. cbn [bind]. rewrite Nat2Z.id.
  destruct (write_entries original program) as [b r] eqn:Ew. cbn [fst snd] in *. subst r. rewrite (read_entries_failed original program b e [] [] Ew). reflexivity. Qed.
Print Assumptions C46_failed_write.
Example C46_example : let file := fst (write_binary io_orig io_prog) in length file = 40%nat /\ read (firstn 39 file) = Err StructError /\ read (firstn 12 file) = Err StructError /\ read (0 :: tl file) = Err RuntimeError /\
  write_binary io_orig [(4, [(70000, 4)]); (8, [(1, 8)])] = (le_bytes 8 magic_word ++ [2; 0; 0; 0; 4; 0; 0; 0; 1; 0; 0; 0; 112; 17; 1; 0; 8; 0; 0; 0], Err RuntimeError).
Proof. vm_compute. auto. Qed.

(** C47. *)
Theorem C47_refuses : forall original program,
  (exists file e, write_binary original program = (file, Err e)) <->
  ~ (Forall (writable original) program /\ Z.of_nat (length program) < 2 ^ 32).
Proof. intros original program. split.
  - intros (file & e & H) [W L]. destruct (write_binary_ok original program W L) as (es & _ & _ & E). congruence.
  - intros H. destruct (write_binary original program) as [file [u|e]] eqn:E; [|eauto]. exfalso. apply H. unfold write_binary in E. apply before_ok in E. destruct E as (b1 & b2 & u1 & _ & E & _). apply before_ok in E.
    destruct E as (b3 & b4 & u2 & E1 & E2 & _). split; [eapply write_entries_inv, E2|]. destruct (put_cases 4 (Z.of_nat (length program))) as [[P _]|[_ X]]; [change (8 * Z.of_nat 4) with 32 in P; lia|congruence]. Qed.
Print Assumptions C47_refuses.
(** What makes an address unwritable: it or a value does not fit, the original
    program does not know it, or no candidate has the original encoding. *)
Theorem C47_writable : forall original k v, fits32 k -> (forall c, In c v -> fits32 (encoding c)) -> Z.of_nat (length v) < 2 ^ 32 ->
  (writable original (k, v) <-> exists o others, dget original k = Some (o :: others) /\ In (encoding o) (map encoding v)).
Proof. intros original k v K F L. split.
  - intros (pre & o' & post & (o & others & G & E & Eo & _) & _). exists o, others. split; [exact G|]. cbn [snd] in E. rewrite <- Eo. apply in_map. rewrite E. apply in_app_iff. right; left; reflexivity.
  - intros (o & others & G & I). assert (X : forall v, In (encoding o) (map encoding v) -> exists pre o' post, v = pre ++ o' :: post /\ encoding o' = encoding o /\ forall c, In c pre -> encoding c <> encoding o).
    { clear. induction v as [|c v IH]; intros I; [destruct I|]. destruct (Z.eq_dec (encoding c) (encoding o)) as [E|E]; [exists [], c, v; split; [reflexivity|]; split; [exact E|intros ? []]|].
      destruct I as [I|I]; [contradiction|]. destruct (IH I) as (pre & o' & post & -> & A & B). exists (c :: pre), o', post. split; [reflexivity|]. split; [exact A|]. intros x [<-|J]; [exact E|apply B, J]. }
    destruct (X v I) as (pre & o' & post & -> & A & B). exists pre, o', post. cbn [fst snd]. split; [exists o, others; auto|]. split; [exact K|]. split.
    + intros c Hc. apply F. rewrite in_app_iff in *. cbn [In] in *. tauto.
    + rewrite app_length in L. cbn [length] in L. lia. Qed.
Print Assumptions C47_writable.
Example C47_example : snd (write_binary io_orig [(4, [(1, 4)])]) = Err RuntimeError /\ snd (write_binary io_orig [(12, [(1, 12)])]) = Err KeyError /\
  snd (write_binary io_orig [(4, [(2 ^ 32, 4); (70000, 4)])]) = Err StructError /\ snd (write_binary io_orig [(4, [(70000, 4); (2 ^ 32, 4)])]) = Ok tt /\ snd (write_binary io_orig [(4, [])]) = Err RuntimeError.
Proof. vm_compute. auto 6. Qed.

(** C71. *)
Lemma sort_filter {A} (key : A -> Z) l a : filter (fun i => key i =? a) (sort_by key l) = filter (fun i => key i =? a) l.
Proof. induction l as [|x l IH]; [reflexivity|]. cbn [sort_by fold_right]. fold (sort_by key l). assert (G : forall s, filter (fun i => key i =? a) (insert_by key x s) = filter (fun i => key i =? a) (x :: s)).
  { clear. induction s as [|y s IH]; [reflexivity|]. cbn [insert_by]. destruct (key x <=? key y) eqn:E; [reflexivity|]. cbn [filter] in *. rewrite IH. destruct (key x =? a) eqn:Ex, (key y =? a) eqn:Ey; try reflexivity. lia. }
  rewrite G. cbn [filter]. rewrite IH. reflexivity. Qed.
Lemma list_to_dict_keys l : NoDup (dkeys (list_to_dict l)).
Proof. unfold list_to_dict. assert (G : forall d : dict (list inst), NoDup (dkeys d) -> NoDup (dkeys (fold_left (fun d i => dset d (address i) [i]) l d))); [|apply G; constructor].
  induction l as [|i l IH]; intros d N; [exact N|]. cbn [fold_left]. apply IH, dset_nodup, N. Qed.
Definition last_at (l : list inst) (i : inst) : Prop := exists l1 l2, l = l1 ++ i :: l2 /\ forall j, In j l2 -> address j <> address i.
Theorem C71_list_dict : forall l, exists s, dict_to_list (list_to_dict l) = map (fun i => [i]) s /\
  StronglySorted (fun i j => address i < address j) s /\ (forall i, In i s <-> last_at l i).
Proof. intros l. pose proof (list_to_dict_keys l) as N. set (d := list_to_dict l) in *. unfold dict_to_list. set (ks := sort_by (fun k => k) (dkeys d)).
  assert (P : Permutation ks (dkeys d)) by apply sort_by_perm. assert (S : StronglySorted (fun x y => x <= y) ks) by apply sort_by_sorted.
  assert (Nk : NoDup ks) by (eapply Permutation_NoDup; [symmetry; exact P|exact N]).
  assert (I : forall k, In k ks -> exists i, dget d k = Some [i] /\ address i = k /\ last_at l i).
  { intros k Hk. eapply Permutation_in in Hk; [|exact P]. apply dget_some_in in Hk. destruct Hk as (o & G). pose proof G as G'. apply C45_list_original in G'. destruct G' as (i & l1 & l2 & -> & -> & A & B). exists i. split; [exact G|]. split; [exact A|]. exists l1, l2. rewrite A. auto. }
  assert (G : forall ks, NoDup ks -> StronglySorted (fun x y => x <= y) ks -> (forall k, In k ks -> exists i, dget d k = Some [i] /\ address i = k /\ last_at l i) ->
    exists s, flat_map (fun k => match dget d k with Some v => [v] | None => [] end) ks = map (fun i => [i]) s /\ map address s = ks /\ StronglySorted (fun i j => address i < address j) s /\ forall i, In i s -> last_at l i).
  { clear. induction ks as [|k ks IH]; intros N S I; [exists []; split; [reflexivity|]; split; [reflexivity|]; split; [constructor|intros ? []]|].
    inversion N as [|? ? Nk N']; subst. inversion S as [|? ? S' F]; subst. destruct (IH N' S') as (s & E1 & E2 & E3 & E4); [intros; apply I; right; assumption|]. destruct (I k) as (i & G & A & L); [left; reflexivity|].
    exists (i :: s). cbn [flat_map map]. rewrite G, E1. split; [reflexivity|]. split; [rewrite A, E2; reflexivity|]. split; [|intros j [<-|J]; [exact L|apply E4, J]]. constructor; [exact E3|]. rewrite Forall_forall in *. intros j J.
    assert (J' : In (address j) ks) by (rewrite <- E2; apply in_map, J). specialize (F _ J'). assert (address j <> k) by (intros X; apply Nk; rewrite <- X; exact J'). lia. }
  destruct (G ks Nk S I) as (s & E1 & E2 & E3 & E4). exists s. split; [exact E1|]. split; [exact E3|]. intros i. split; [apply E4|]. intros (l1 & l2 & El & B).
  assert (Gi : dget d (address i) = Some [i]) by (apply C45_list_original; exists i, l1, l2; auto). assert (Ii : In (address i) ks) by (eapply Permutation_in; [symmetry; exact P|]; apply dget_some_in; eauto).
  rewrite <- E2 in Ii. apply in_map_iff in Ii. destruct Ii as (j & Ej & J). destruct (E4 j J) as (m1 & m2 & Em & Bm). assert (Gj : dget d (address i) = Some [j]) by (apply C45_list_original; exists j, m1, m2; rewrite <- Ej; auto). assert (j = i) by congruence. subst j. exact J. Qed.
Print Assumptions C71_list_dict.
Theorem C71_functions : forall fns, let '(insts, starts) := functions_to_list fns in
  Permutation insts (concat fns) /\ StronglySorted (fun i j => address i <= address j) insts /\
  (forall a, filter (fun i => address i =? a) insts = filter (fun i => address i =? a) (concat fns)) /\
  (forall a se, dget starts a = Some se <-> exists f l1 l2, fns = l1 ++ f :: l2 /\ start_addr f = a /\ (forall g, In g l2 -> start_addr g <> a) /\ se = (a, final_addr f)).
Proof. intros fns. unfold functions_to_list. split; [apply sort_by_perm|]. split; [apply sort_by_sorted|]. split; [intros; apply sort_filter|]. intros a se. 
  induction fns as [|f fns IH] using rev_ind; [cbn; split; [discriminate|intros (f & l1 & l2 & E & _); destruct l1; discriminate]|].
  rewrite fold_left_app. cbn [fold_left]. rewrite dget_dset. destruct (a =? start_addr f) eqn:E.
  - split.
    + intros H. injection H as <-. exists f, fns, []. split; [reflexivity|]. split; [lia|]. split; [intros g []|]. f_equal. lia.
    + intros (g & l1 & l2 & Eq & A & B & ->). destruct l2 as [|h l2] using rev_ind.
      * apply app_inj_tail in Eq. destruct Eq as [_ ->]. f_equal. f_equal. lia.
      * clear IHl2. exfalso. rewrite app_comm_cons, app_assoc in Eq. apply app_inj_tail in Eq. destruct Eq as [_ ->]. apply (B h); [apply in_app_iff; right; left; reflexivity|lia].
  - rewrite IH. split.
    + intros (g & l1 & l2 & -> & A & B & ->). exists g, l1, (l2 ++ [f]). split; [rewrite <- app_assoc; reflexivity|]. split; [exact A|]. split; [|reflexivity]. intros h Hh. apply in_app_iff in Hh. destruct Hh as [Hh|[<-|[]]]; [apply B, Hh|lia].
    + intros (g & l1 & l2 & Eq & A & B & ->). destruct l2 as [|h l2] using rev_ind.
      * apply app_inj_tail in Eq. destruct Eq as [_ ->]. lia.
      * clear IHl2. rewrite app_comm_cons, app_assoc in Eq. apply app_inj_tail in Eq. destruct Eq as [-> ->]. exists g, l1, l2. split; [reflexivity|]. split; [exact A|]. split; [intros k Hk; apply B, in_app_iff; left; exact Hk|reflexivity]. Qed.
Print Assumptions C71_functions.
Example C71_example : dict_to_list (list_to_dict [(1, 8); (2, 4); (3, 8); (4, 0)]) = [[(4, 0)]; [(2, 4)]; [(3, 8)]] /\
  functions_to_list [[(1, 8); (2, 12)]; []; [(3, 0); (4, 4); (5, 8)]] = ([(3, 0); (4, 4); (1, 8); (5, 8); (2, 12)], [(8, (8, 12)); (0, (0, 8))]).
Proof. vm_compute. auto. Qed.
