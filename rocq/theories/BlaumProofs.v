From Verif Require Import ListLemmas BlaumModel InterleaveSpec.
From Coq Require Import ZifyBool ZifyNat.

Lemma mapM_ok {A B} (f : A -> result B) g l : (forall x, In x l -> f x = Ok (g x)) -> mapM f l = Ok (map g l).
Proof. induction l as [|a l IH]; intros H; [reflexivity|]. cbn. rewrite H by (left; reflexivity). cbn.
  rewrite IH by (intros; apply H; right; assumption). reflexivity. Qed.

Lemma mapM_err {A B} (f : A -> result B) l e : mapM f l = Err e -> exists x, In x l /\ f x = Err e.
Proof. induction l as [|a l IH]; intros H; [discriminate|]. cbn in H. destruct (f a) eqn:E; cbn in H.
  - destruct (mapM f l) eqn:E2; cbn in H; [discriminate|]. injection H as ->. destruct (IH eq_refl) as (x & I & F).
    exists x; split; [right; exact I|exact F].
  - injection H as ->. exists a. split; [left; reflexivity|exact E]. Qed.

Lemma round_div_near a b : 0 < b -> exists q, round_div a b = Ok q /\ 2 * Z.abs (q * b - a) <= b.
Proof. intros Hb. unfold round_div. replace (b =? 0) with false by lia. replace (b <? 0) with false by lia.
  eexists. split; [reflexivity|]. pose proof (Z.div_mod a b ltac:(lia)). pose proof (Z.mod_pos_bound a b Hb).
  set (q := a / b) in *. set (r := a mod b) in *. clearbody q r.
  destruct (2 * r <? b) eqn:E1; [nia|]. destruct (2 * r >? b) eqn:E2; [nia|]. destruct (Z.even q); nia. Qed.

Lemma round_div_err a b e : round_div a b = Err e -> e = ZeroDivisionError.
Proof. unfold round_div. destruct (b =? 0); [congruence|]. destruct (b <? 0); discriminate. Qed.

Lemma blaum_matrix ms ps dw dh w h m :
  0 < m -> round_div ms ps = Ok m -> 0 <= w -> 0 <= h ->
  (if negb (dw =? -1) && (dh =? -1) then
       let* h := round_div ms dw in Ok (dw, h)
     else if negb (dh =? -1) && (dw =? -1) then
       let* w := round_div ms dh in Ok (w, dh)
     else if (dh =? -1) && (dw =? -1) then Err RuntimeError
     else Ok (dw, dh)) = Ok (w, h) ->
  exists M, blaum ms ps dw dh = Ok M /\ packet_matrix M w h m.
Proof. intros Hm Em Hw Hh E. unfold blaum. rewrite E. cbn [bind]. rewrite Em. cbn [bind].
  unfold round_sqrt. replace (2 * m - 1 <? 0) with false by lia. cbn [bind].
  set (b := if _ >? _ then _ else _). clearbody b.
  erewrite mapM_ok.
  2:{ intros y _. apply mapM_ok with (g := fun x => Z.abs (Z.rem (x - y * b) m)). intros x _.
      replace (m =? 0) with false by lia. reflexivity. }
  eexists. split; [reflexivity|]. split.
  - rewrite map_length, zrange_length. lia.
  - apply Forall_forall. intros row Hr. apply in_map_iff in Hr. destruct Hr as (y & <- & _). split.
    + rewrite map_length, zrange_length. lia.
    + apply Forall_forall. intros p Hp. apply in_map_iff in Hp. destruct Hp as (x & <- & _).
      split; [lia|]. pose proof (Z.rem_bound_abs (x - y * b) m ltac:(lia)). lia. Qed.

Lemma near_nonneg a b q : 0 < b -> 0 <= a -> 2 * Z.abs (q * b - a) <= b -> 0 <= q.
Proof. intros. nia. Qed.

Lemma blaum_spec ms ps dw dh : 0 < ps -> ps < 2 * ms ->
  exists m, 2 * Z.abs (m * ps - ms) <= ps /\ 1 <= m /\
  (0 <= dw -> 0 <= dh -> exists M, blaum ms ps dw dh = Ok M /\ packet_matrix M dw dh m) /\
  (0 < dw -> dh = -1 -> exists h M, blaum ms ps dw dh = Ok M /\ 2 * Z.abs (h * dw - ms) <= dw /\ packet_matrix M dw h m) /\
  (dw = -1 -> 0 < dh -> exists w M, blaum ms ps dw dh = Ok M /\ 2 * Z.abs (w * dh - ms) <= dh /\ packet_matrix M w dh m).
Proof. intros Hps Hlt. destruct (round_div_near ms ps Hps) as (m & Em & Hm). exists m. split; [exact Hm|].
  assert (Hm1 : 1 <= m) by nia. split; [exact Hm1|]. split; [|split].
  - intros Hw Hh. apply blaum_matrix; try assumption; try lia.
    replace (dw =? -1) with false by lia. replace (dh =? -1) with false by lia. reflexivity.
  - intros Hw ->. destruct (round_div_near ms dw Hw) as (h & Eh & Hh). exists h.
    destruct (blaum_matrix ms ps dw (-1) dw h m) as (M & E & W); try lia; try assumption.
    + apply (near_nonneg ms dw); lia.
    + replace (dw =? -1) with false by lia. cbn [negb andb Z.eqb Pos.eqb]. rewrite Eh. reflexivity.
    + exists M. auto.
  - intros -> Hh. destruct (round_div_near ms dh Hh) as (w & Ew & Hw). exists w.
    destruct (blaum_matrix ms ps (-1) dh w dh m) as (M & E & W); try lia; try assumption.
    + apply (near_nonneg ms dh); lia.
    + replace (dh =? -1) with false by lia. cbn [negb andb Z.eqb Pos.eqb]. rewrite Ew. reflexivity.
    + exists M. auto. Qed.

Lemma blaum_runtime_error ms ps dw dh : blaum ms ps dw dh = Err RuntimeError <-> dw = -1 /\ dh = -1.
Proof. split.
  - unfold blaum. intros H.
    destruct (Z.eqb_spec dw (-1)) as [A|A], (Z.eqb_spec dh (-1)) as [B|B]; cbn [negb andb] in H; [auto|exfalso..].
    all: repeat match type of H with
      | context [round_div ?a ?b] => let E := fresh in destruct (round_div a b) eqn:E; cbn [bind] in H;
          [|apply round_div_err in E; subst; discriminate]
      end.
    all: unfold round_sqrt in H; match type of H with context [if ?c then _ else _] => destruct c end; cbn [bind] in H; [discriminate|].
    all: apply mapM_err in H; destruct H as (y & _ & H); apply mapM_err in H; destruct H as (x & _ & H);
      match type of H with (if ?c then _ else _) = _ => destruct c; discriminate end.
  - intros [-> ->]. reflexivity. Qed.
