(** C140: when a recovery run writes its final solution. *)
From Verif Require Import ListLemmas FlipModel FlipSpec MetaModel RecModel RecProofs RemoveProofs BuilderModel BuilderSpec BuilderProps.
From Verif Require Import PacketModel IoModel IoSpec IoProofs IoProps ReportModel ReportSpec ReportProofs ReportProps InitialModel InitialProps RunModel RunProps WholeModel.
From Coq Require Import ZifyBool ZifyNat Permutation Sorted.

(** What the decoder, the printed text and registers_used() have to do with each
    other: addresses are kept, what is printed decides the fields, registers are part of
    what is used. *)
Definition coherent (text : Z -> Z -> Z) (look : Z -> Z -> dinst) (regs : Z -> Z -> list Z) : Prop :=
  (forall e a, d_addr (look e a) = a) /\
  (forall e e' a, text e a = text e' a -> d_ignore (look e a) = d_ignore (look e' a) /\ d_op (look e a) = d_op (look e' a) /\ d_cond (look e a) = d_cond (look e' a) /\ d_used (look e a) = d_used (look e' a)) /\
  (forall e a, incl (regs e a) (d_used (look e a))).
Definition has (p : cprog) (i : inst) : Prop := exists v c, dget p (address i) = Some v /\ In c v /\ p_enc c = encoding i.
Definition one_list_each (originals : list inst) (p : cprog) : Prop := NoDup (dkeys p) /\ forall a, In a (dkeys p) <-> In a (map address originals).
Definition undecided (p : cprog) : Prop := exists a v, dget p a = Some v /\ (1 < length v)%nat.

Lemma numbered_nth {A} (v : list A) k n c : In (n, c) (combine (zrange k (k + Z.of_nat (length v))) v) <-> k <= n /\ nth_error v (Z.to_nat (n - k)) = Some c.
Proof. revert k. induction v as [|x v IH]; intros k.
  - cbn [length]. rewrite combine_nil. split; [intros []|]. intros [_ H]. destruct (Z.to_nat (n - k)); discriminate.
  - cbn [length]. rewrite zrange_cons by lia. cbn [combine In]. replace (k + Z.of_nat (S (length v))) with (k + 1 + Z.of_nat (length v)) by lia. rewrite IH. split.
    + intros [E|[L H]]; [injection E as <- <-; split; [lia|]; rewrite Z.sub_diag; reflexivity|]. split; [lia|]. replace (Z.to_nat (n - k)) with (S (Z.to_nat (n - (k + 1)))) by lia. exact H.
    + intros [L H]. destruct (Z.eq_dec n k) as [->|Ne]; [left; rewrite Z.sub_diag in H; cbn in H; congruence|]. right. split; [lia|]. replace (Z.to_nat (n - k)) with (S (Z.to_nat (n - (k + 1)))) in H by lia. exact H. Qed.
Lemma built_get text look regs p a : dget (built_program text look regs p) a = option_map (fun v => map (as_built text look regs a) (combine (zrange 0 (Z.of_nat (length v))) v)) (dget p a).
Proof. unfold built_program. induction p as [|[k v] p IH]; [reflexivity|]. cbn [map dget fst snd]. destruct (a =? k) eqn:E; [replace k with a by lia; reflexivity|exact IH]. Qed.
Lemma built_keys text look regs p : dkeys (built_program text look regs p) = dkeys p.
Proof. unfold built_program, dkeys. rewrite map_map. reflexivity. Qed.
Lemma built_in text look regs p a pa x : dget (built_program text look regs p) a = Some pa -> In x pa -> exists v n c, dget p a = Some v /\ x = as_built text look regs a (n, c) /\ nth_error v (Z.to_nat n) = Some c /\ 0 <= n.
Proof. intros G I. rewrite built_get in G. destruct (dget p a) as [v|]; [|discriminate]. cbn in G. injection G as <-. apply in_map_iff in I. destruct I as ([n c] & <- & I). apply (numbered_nth v 0) in I. rewrite Z.sub_0_r in I. exists v, n, c. tauto. Qed.
Lemma map_values_get {A B} (f : Z -> A -> B) (q : dict A) a : dget (map (fun kv => (fst kv, f (fst kv) (snd kv))) q) a = option_map (f a) (dget q a).
Proof. induction q as [|[k v] q IH]; [reflexivity|]. cbn [map dget fst snd]. destruct (a =? k) eqn:E; [replace k with a by lia; reflexivity|exact IH]. Qed.

(** The constraint phase of the code adds nothing, keeps what it should, never fails. *)
Theorem C140_constrain : forall text look regs originals p, coherent text look regs -> NoDup (map address originals) ->
  (forall i, In i originals -> d_ignore (look (encoding i) (address i)) = false) -> one_list_each originals p -> (forall i, In i originals -> has p i) ->
  exists q, constrain text look regs originals p = Ok q /\ fewer p q /\ (forall a v w, dget p a = Some v -> dget q a = Some w -> incl w v /\ (length w <= length v)%nat) /\ forall i, In i originals -> has q i.
Proof. intros text look regs originals p (La & Lt & Lr) Na Ig (Np & Kp) Hp. unfold constrain. set (xp := built_program text look regs p). set (xo := map (built_original text look regs) originals).
  assert (Ax : map x_addr xo = map address originals) by (unfold xo; rewrite map_map; apply map_ext; intros i; apply La).
  assert (Cf : candidates_for xp xo).
  { split; [rewrite Ax; exact Na|]. split; [unfold xp; rewrite built_keys; exact Np|]. split; [intros a; unfold xp; rewrite built_keys, Ax; apply Kp|]. split.
    - intros o pa c Ho G I T. apply in_map_iff in Ho. destruct Ho as (i & <- & Hi). change (x_addr (built_original text look regs i)) with (d_addr (look (encoding i) (address i))) in G. rewrite La in G. destruct (built_in _ _ _ _ _ _ _ G I) as (v & n & d & _ & -> & _). cbn in T. destruct (Lt _ _ _ T) as (A1 & A2 & A3 & A4). repeat split; assumption.
    - intros a pa c G I. destruct (built_in _ _ _ _ _ _ _ G I) as (v & n & d & _ & -> & _). cbn. apply Lr. }
  assert (Obj : forall i, In i originals -> exists v n c, dget p (address i) = Some v /\ 0 <= n /\ nth_error v (Z.to_nat n) = Some c /\ p_enc c = encoding i /\ exists pa, dget xp (address i) = Some pa /\ In (as_built text look regs (address i) (n, c)) pa).
  { intros i Hi. destruct (Hp i Hi) as (v & c & G & I & E). apply In_nth_error in I. destruct I as (k & Hk). exists v, (Z.of_nat k), c. split; [exact G|]. split; [lia|]. rewrite Nat2Z.id. split; [exact Hk|]. split; [exact E|]. unfold xp. rewrite built_get, G. eexists. split; [reflexivity|]. apply in_map. apply (numbered_nth v 0). rewrite Z.sub_0_r, Nat2Z.id. split; [lia|exact Hk]. }
  assert (Of : offers xp xo).
  { intros o Ho _. apply in_map_iff in Ho. destruct Ho as (i & <- & Hi). change (x_addr (built_original text look regs i)) with (d_addr (look (encoding i) (address i))). rewrite La. destruct (Obj i Hi) as (v & n & c & _ & _ & _ & E & pa & G & I). exists pa, (as_built text look regs (address i) (n, c)). split; [exact G|]. split; [exact I|]. cbn. rewrite E. reflexivity. }
  destruct (C48_never_lost xp xo Cf Of) as (q & m & s & E & Kq & Sub & _). rewrite E. cbn [bind]. eexists. split; [reflexivity|]. set (ob := fun (k : Z) (xs : list xinst) => objects (match dget p k with Some v => v | None => [] end) xs).
  change (map (fun kv : Z * list xinst => (fst kv, objects match dget p (fst kv) with Some v => v | None => [] end (snd kv))) q) with (map (fun kv => (fst kv, ob (fst kv) (snd kv))) q).
  split; [split|split].
  - rewrite <- (built_keys text look regs p). fold xp. rewrite <- Kq. unfold dkeys. rewrite map_map. reflexivity.
  - intros a w G. rewrite map_values_get in G. destruct (dget q a) as [xs|] eqn:Gq; [|discriminate]. cbn [option_map] in G. injection G as <-. destruct (Sub _ _ Gq) as (pa0 & G0 & I0 & _).
    assert (Ha : In a (dkeys p)) by (rewrite <- (built_keys text look regs p); apply dget_some_in; eauto). apply dget_some_in in Ha. destruct Ha as (v & Gv). exists v. split; [exact Gv|]. unfold ob. rewrite Gv. intros e He. apply in_map_iff in He. destruct He as (c & <- & Hc). unfold objects in Hc. apply in_flat_map in Hc. destruct Hc as (x & _ & Hc).
    destruct (nth_error v (Z.to_nat (x_id x))) as [c'|] eqn:Hn; [|destruct Hc]. destruct Hc as [<-|[]]. apply in_map. eapply nth_error_In, Hn.
  - intros a v w Gv G. rewrite map_values_get in G. destruct (dget q a) as [xs|] eqn:Gq; [|discriminate]. cbn [option_map] in G. injection G as <-. destruct (Sub _ _ Gq) as (pa0 & G0 & I0 & L0). unfold xp in G0. rewrite built_get, Gv in G0. cbn [option_map] in G0. injection G0 as <-. unfold ob. rewrite Gv.
    rewrite map_length, combine_length, zrange_length in L0. split.
    + intros c Hc. unfold objects in Hc. apply in_flat_map in Hc. destruct Hc as (x & _ & Hc). destruct (nth_error v (Z.to_nat (x_id x))) as [c'|] eqn:Hn; [|destruct Hc]. destruct Hc as [<-|[]]. eapply nth_error_In, Hn.
    + assert (Lo : (length (objects v xs) <= length xs)%nat); [|lia]. clear. unfold objects. induction xs as [|x xs IH]; [apply le_n|]. cbn [flat_map length]. rewrite app_length. destruct (nth_error v (Z.to_nat (x_id x))); cbn [length]; lia.
  - intros i Hi. destruct (Obj i Hi) as (v & n & c & Gv & Ln & Hn & Ee & pa & Gx & Ix).
    destruct (C48_alike_kept xp xo q m s Cf Of E (built_original text look regs i) pa (as_built text look regs (address i) (n, c))) as (xs & Gq & Iq).
    + apply in_map, Hi.
    + apply Ig, Hi.
    + change (x_addr (built_original text look regs i)) with (d_addr (look (encoding i) (address i))). rewrite La. exact Gx.
    + exact Ix.
    + cbn. rewrite Ee. reflexivity.
    + change (x_addr (built_original text look regs i)) with (d_addr (look (encoding i) (address i))) in Gq. rewrite La in Gq. exists (ob (address i) xs), c. rewrite map_values_get, Gq. split; [reflexivity|]. split; [|exact Ee]. unfold ob. rewrite Gv. unfold objects. apply in_flat_map. exists (as_built text look regs (address i) (n, c)). split; [exact Iq|]. cbn [as_built x_id fst]. rewrite Hn. left. reflexivity. Qed.
Print Assumptions C140_constrain.

(** ** Reports and files *)
Lemma report_total e os es p : NoDup (dkeys p) -> length os = length p ->
  (undecided p -> exists q, snd (report_on e os (es, p)) = Ok q) /\ (~ undecided p -> snd (report_on e os (es, p)) = Err ZeroDivisionError).
Proof. intros N L. unfold report_on. destruct (print_report os (dict_to_list p)) as [r vs] eqn:E. cbn [snd]. destruct (C99_exactly_partial os (dict_to_list p)) as (A & _ & C). rewrite E in A, C. cbn [fst] in A, C. rewrite dict_to_list_length in A, C. cbv zeta in A, C.
  assert (Sn : map snd (combine os (dict_to_list p)) = dict_to_list p). { assert (X : length os = length (dict_to_list p)) by (rewrite dict_to_list_length; exact L). revert X. clear. generalize (dict_to_list p) as l. induction os as [|o os IH]; intros [|x l] X; cbn in *; try lia; [reflexivity|]. f_equal. apply IH. lia. }
  split.
  - intros (a & v & G & Lv). assert (P : exists t, r = Ok t); [|destruct P as (t & ->); eexists; reflexivity]. apply A. split; [lia|]. match goal with |- 0 < ReportSpec.number ?f ?l => destruct (Z.eq_dec (ReportSpec.number f l) 0) as [Z0|Z0]; [|unfold ReportSpec.number in *; lia] end. exfalso. rewrite number_zero in Z0.
    assert (X : In v (dict_to_list p)) by (apply dict_to_list_in; [exact N|]; exists a; apply dget_in, G). rewrite <- Sn in X. apply in_map_iff in X. destruct X as (ov & E1 & X). specialize (Z0 ov X). rewrite E1 in Z0. unfold contested in Z0. lia.
  - intros U. assert (P : r = Err ZeroDivisionError); [|rewrite P; reflexivity]. apply C. split; [lia|]. apply number_zero. intros [o v] X. cbn [snd]. apply (in_map snd) in X. rewrite Sn in X. cbn [snd] in X. apply dict_to_list_in in X; [|exact N]. destruct X as (k & X). unfold contested. destruct (1 <? length v)%nat eqn:Lv; [|reflexivity]. exfalso. apply U. exists k, v. split; [apply dget_nodup_in; assumption|lia]. Qed.
Definition small (p : cprog) : Prop := forall a v, dget p a = Some v -> fits32 a /\ Z.of_nat (length v) < 2 ^ 32 /\ forall c, In c v -> fits32 (p_enc c).
Lemma save_total originals p : NoDup (map address originals) -> Z.of_nat (length originals) < 2 ^ 32 -> one_list_each originals p -> (forall i, In i originals -> has p i) -> small p -> exists f, save originals p = Ok f.
Proof. intros Na Lo (Np & Kp) Hp Sm. assert (K : dkeys (to_write p) = dkeys p) by (unfold to_write, dkeys; rewrite map_map; reflexivity).
  assert (W : Forall (writable (list_to_dict originals)) (to_write p)).
  { apply Forall_forall. intros kv Hkv. unfold to_write in Hkv. apply in_map_iff in Hkv. destruct Hkv as ([a v] & <- & Hkv). cbn [fst snd]. pose proof (dget_nodup_in p a v Np Hkv) as G. destruct (Sm a v G) as (Fa & Lv & Fe). apply C47_writable.
    - exact Fa.
    - intros c Hc. apply in_map_iff in Hc. destruct Hc as (d & <- & Hd). apply Fe, Hd.
    - rewrite map_length. exact Lv.
    - assert (Ha : In a (map address originals)) by (apply Kp, dget_some_in; eauto). apply in_map_iff in Ha. destruct Ha as (i & <- & Hi). destruct (Hp i Hi) as (v' & c & G' & Ic & Ec). assert (v' = v) as -> by congruence. exists i, []. split; [apply original_at; assumption|]. rewrite map_map. change (fun x => encoding (p_enc x, address i)) with p_enc. rewrite <- Ec. apply in_map, Ic. }
  assert (Lp : Z.of_nat (length (to_write p)) < 2 ^ 32). { unfold to_write. rewrite map_length. rewrite <- (map_length fst p). change (map fst p) with (dkeys p). assert (X : (length (dkeys p) <= length (map address originals))%nat) by (apply NoDup_incl_length; [exact Np|]; intros a; apply Kp). rewrite map_length in X. lia. }
  destruct (C45_round_trip _ _ ltac:(rewrite K; exact Np) W Lp) as (file & _ & _ & E & _). exists file. unfold save, write_binary_list. rewrite E. reflexivity. Qed.
Lemma one_list_length originals p : NoDup (map address originals) -> one_list_each originals p -> length originals = length p.
Proof. intros Na (Np & Kp). rewrite <- (map_length address), <- (map_length fst p). apply Permutation_length, NoDup_Permutation; [exact Na|exact Np|]. intros a. symmetry. apply Kp. Qed.

Lemma undecided_perm p q : dkeys q = dkeys p -> (forall a v, dget p a = Some v -> exists w, dget q a = Some w /\ length v = length w) -> (undecided q <-> undecided p).
Proof. intros K H. split; intros (a & v & G & L).
  - assert (Ha : In a (dkeys p)) by (rewrite <- K; apply dget_some_in; eauto). apply dget_some_in in Ha. destruct Ha as (u & Gu). destruct (H a u Gu) as (w & Gw & Lw). exists a, u. split; [exact Gu|]. assert (w = v) as -> by congruence. lia.
  - destruct (H a v G) as (w & Gw & Lw). exists a, w. split; [exact Gw|lia]. Qed.

(** How a run ends once the recovery loop is done with [p2]: without a file if there
    is nothing left to decide, before or after the constraint phase; with one
    otherwise. *)
Theorem C140_end : forall text look regs originals p0 rec cont fuel es1 p1 initial es2 p2 n,
  coherent text look regs -> NoDup (map address originals) -> (forall i, In i originals -> d_ignore (look (encoding i) (address i)) = false) ->
  (forall c, p_enc (cont c) = p_enc c) -> Z.of_nat (length originals) < 2 ^ 32 ->
  let os := map (original text) originals in
  report_on Corrupted_report os ([], p0) = (es1, Ok p1) -> save originals p1 = Ok initial -> recovery_loop rec os fuel 1 (es1 ++ [Initial_solution], p1) = (es2, Ok (p2, n)) ->
  one_list_each originals p2 -> (forall i, In i originals -> has p2 i) -> small p2 ->
  let run := run_files text originals (Ok p0) rec cont (constrain text look regs originals) fuel in
  (~ undecided p2 -> snd run = Err ZeroDivisionError) /\
  (undecided p2 -> exists p3 p4, fewer p2 p3 /\ (forall a v, dget p2 a = Some v -> exists w, dget p3 a = Some w /\ Permutation (map p_enc v) (map p_enc w)) /\ constrain text look regs originals p3 = Ok p4 /\ fewer p3 p4 /\ (forall i, In i originals -> has p4 i) /\
     (undecided p4 -> exists final, snd run = Ok (initial, final)) /\
     (~ undecided p4 -> snd run = Err ZeroDivisionError)).
Proof. intros text look regs originals p0 rec cont fuel es1 p1 initial es2 p2 n Co Na Ig Ce Lo os E1 S1 E2 O2 H2 Sm2 run. subst run. unfold run_files. fold os. rewrite E1, S1, E2.
  set (pc := map (fun kv : Z * list pcand => (fst kv, map cont (snd kv))) p2). assert (Gc : forall a, dget pc a = option_map (map cont) (dget p2 a)) by (intros a; unfold pc; apply dget_map_values).
  assert (Kc : dkeys pc = dkeys p2) by (unfold pc, dkeys; rewrite map_map; reflexivity). destruct O2 as (N2 & K2). assert (Nc : NoDup (dkeys pc)) by (rewrite Kc; exact N2).
  assert (Oc : one_list_each originals pc) by (split; [exact Nc|intros a; rewrite Kc; apply K2]). assert (Lc : length os = length pc) by (unfold os; rewrite map_length; apply one_list_length; assumption).
  assert (Uc : undecided pc <-> undecided p2) by (apply undecided_perm; [exact Kc|]; intros a v G; exists (map cont v); rewrite Gc, G, map_length; auto).
  destruct (report_total (Pass_report (n + 1)) os es2 pc Nc Lc) as [R1 R0]. destruct (report_on (Pass_report (n + 1)) os (es2, pc)) as [es3 [p3|e3]] eqn:E3.
  all: pose proof (f_equal snd E3) as Q3; cbn [snd] in Q3.
  2:{ cbn [snd]. split; [intros U; assert (Y := eq_trans (eq_sym Q3) (R0 ltac:(rewrite Uc; exact U))); injection Y as ->; reflexivity|]. intros U. destruct R1 as (q & X); [rewrite Uc; exact U|]. assert (Y := eq_trans (eq_sym Q3) X). discriminate. }
  split; [intros U; assert (Y := eq_trans (eq_sym Q3) (R0 ltac:(rewrite Uc; exact U))); discriminate|]. intros U2.
  destruct (report_on_lists _ _ _ _ _ _ Nc E3) as (K3 & _ & P3). assert (F3 : fewer p2 p3) by (eapply fewer_trans; [apply (continuous_fewer cont), Ce|]; eapply report_fewer; eassumption).
  assert (N3 : NoDup (dkeys p3)) by (rewrite K3; exact Nc). assert (O3 : one_list_each originals p3) by (split; [exact N3|intros a; rewrite K3; apply Oc]).
  assert (H3 : forall i, In i originals -> has p3 i).
  { intros i Hi. destruct (H2 i Hi) as (v & c & G & I & E). destruct (P3 (address i) (map cont v)) as (w & Gw & P & _); [rewrite Gc, G; reflexivity|]. exists w, (cont c). split; [exact Gw|]. split; [eapply Permutation_in; [exact P|apply in_map, I]|]. rewrite Ce. exact E. }
  assert (S3 : small p3).
  { intros a w G. assert (Ha : In a (dkeys pc)) by (rewrite <- K3; apply dget_some_in; eauto). apply dget_some_in in Ha. destruct Ha as (v & Gv). destruct (P3 a v Gv) as (w' & Gw & P & _). assert (w' = w) as -> by congruence. rewrite Gc in Gv. destruct (dget p2 a) as [u|] eqn:Gu; [|discriminate]. cbn [option_map] in Gv. injection Gv as <-. destruct (Sm2 a u Gu) as (A & B & C). split; [exact A|]. split; [rewrite <- (Permutation_length P), map_length; exact B|].
    intros c Hc. apply (Permutation_in _ (Permutation_sym P)) in Hc. apply in_map_iff in Hc. destruct Hc as (d & <- & Hd). rewrite Ce. apply C, Hd. }
  destruct (C140_constrain text look regs originals p3 Co Na Ig O3 H3) as (p4 & E4 & F4 & Sub4 & H4). exists p3, p4. split; [exact F3|]. split.
  { intros a v G. destruct (P3 a (map cont v)) as (w & Gw & P & _); [rewrite Gc, G; reflexivity|]. exists w. split; [exact Gw|]. apply (Permutation_map p_enc) in P. rewrite map_map in P. erewrite map_ext in P; [exact P|exact Ce]. }
  split; [exact E4|]. split; [exact F4|]. split; [exact H4|]. rewrite E4.
  assert (N4 : NoDup (dkeys p4)) by (rewrite (proj1 F4); exact N3). assert (O4 : one_list_each originals p4) by (split; [exact N4|intros a; rewrite (proj1 F4); apply O3]). assert (L4 : length os = length p4) by (unfold os; rewrite map_length; apply one_list_length; assumption).
  assert (S4 : small p4).
  { intros a w G. assert (Ha : In a (dkeys p3)) by (rewrite <- (proj1 F4); apply dget_some_in; eauto). apply dget_some_in in Ha. destruct Ha as (v & Gv). destruct (Sub4 a v w Gv G) as (I & L). destruct (S3 a v Gv) as (A & B & C). split; [exact A|]. split; [lia|]. intros c Hc. apply C, I, Hc. }
  destruct (report_total (Pass_report (n + 2)) os es3 p4 N4 L4) as [T1 T0]. destruct (report_on (Pass_report (n + 2)) os (es3, p4)) as [es4 [p5|e5]] eqn:E5; cbn [snd] in T1, T0.
  2:{ cbn [snd]. split; [intros U; destruct (T1 U) as (q & X); discriminate|]. intros U. specialize (T0 U). injection T0 as ->. reflexivity. }
  split; [|intros U; specialize (T0 U); discriminate]. intros U4. destruct (report_on_lists _ _ _ _ _ _ N4 E5) as (K5 & _ & P5).
  destruct (save_total originals p5) as (final & Ef); [exact Na|exact Lo| | | |].
  - split; [rewrite K5; exact N4|intros a; rewrite K5; apply O4].
  - intros i Hi. destruct (H4 i Hi) as (v & c & G & I & E). destruct (P5 _ _ G) as (w & Gw & P & _). exists w, c. split; [exact Gw|]. split; [eapply Permutation_in; eassumption|exact E].
  - intros a w G. assert (Ha : In a (dkeys p4)) by (rewrite <- K5; apply dget_some_in; eauto). apply dget_some_in in Ha. destruct Ha as (v & Gv). destruct (P5 a v Gv) as (w' & Gw & P & _). assert (w' = w) as -> by congruence. destruct (S4 a v Gv) as (A & B & C). split; [exact A|]. split; [rewrite <- (Permutation_length P); exact B|]. intros c Hc. apply C. eapply Permutation_in; [apply Permutation_sym, P|exact Hc].
  - exists final. rewrite Ef. reflexivity. Qed.
Print Assumptions C140_end.

(** Two instructions.  The operator 2 does not occur in the program, so the candidate 18
    falls to the constraint phase and nothing is left to decide; 33 stays. *)
Definition ex_look (e a : Z) : dinst := mkD e a false 14 (e mod 16) [1] [1] [] [1] [] false KOther None.
Definition ex_orig : list inst := [(17, 4); (17, 8)].
Definition ex_cand (e : Z) : pcand := mkP e e false (1 # 2) [].
Definition ex_cands (e : Z) : cprog := [(4, [ex_cand e; ex_cand 17]); (8, [ex_cand 17])].
Definition ex_run (e : Z) := snd (run_files (fun e _ => e) ex_orig (Ok (ex_cands e)) (fun _ p => Ok p) (fun c => c) (constrain (fun e _ => e) ex_look (fun _ _ => [1]) ex_orig) 3).
Example C140_example : coherent (fun e _ => e) ex_look (fun _ _ => [1]) /\ NoDup (map address ex_orig) /\ one_list_each ex_orig (ex_cands 18) /\ (forall i, In i ex_orig -> has (ex_cands 18) i) /\ small (ex_cands 18) /\ undecided (ex_cands 18) /\
  ex_run 18 = Err ZeroDivisionError /\ exists files, ex_run 33 = Ok files.
Proof. split; [|split; [|split; [|split; [|split; [|split; [|split]]]]]].
  - split; [reflexivity|]. split; [intros e e' a ->; auto|]. intros e a. apply incl_refl.
  - repeat constructor; cbn; intuition discriminate.
  - split; [repeat constructor; cbn; intuition discriminate|]. intros a. cbn. tauto.
  - intros i [<-|[<-|[]]]; do 2 eexists; (split; [reflexivity|]); cbn; auto.
  - intros a v G. cbn [ex_cands dget] in G. destruct (a =? 4) eqn:E4; [injection G as <-|destruct (a =? 8) eqn:E8; [injection G as <-|discriminate]]; (split; [unfold fits32; lia|]); (split; [cbn [length]; lia|]); intros c Hc; cbn [In] in Hc; decompose [or] Hc; subst; try contradiction; unfold fits32; cbn; lia.
  - exists 4, [ex_cand 18; ex_cand 17]. split; [reflexivity|cbn; lia].
  - vm_compute. reflexivity.
  - eexists. vm_compute. reflexivity. Qed.
