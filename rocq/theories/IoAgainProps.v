(** C160: a solution file that is read and written again does not change. *)
From Verif Require Import ListLemmas IoModel IoSpec IoProofs IoProps.
From Coq Require Import ZifyBool ZifyNat.

(** *** Proof *)
Lemma get_back {B} (f : Z * list Z -> B) es : NoDup (map fst es) -> forall kl, In kl es -> dget (map (fun kl => (fst kl, f kl)) es) (fst kl) = Some (f kl).
Proof. induction es as [|x es IH]; intros N kl I; [destruct I|]. cbn [map dget fst snd]. inversion N as [|? ? A B0]; subst. destruct (Z.eqb_spec (fst kl) (fst x)) as [E|E].
  - destruct I as [->|I]; [reflexivity|]. destruct A. rewrite <- E. apply in_map. exact I.
  - destruct I as [->|I]; [congruence|]. apply IH; assumption. Qed.

(** What was written for an address: the original, last, occurs once. *)
Definition once (kl : Z * list Z) : Prop := exists pre o, snd kl = pre ++ [o] /\ ~ In o pre.
Lemma writes_again orig es : Forall (fun kl => fits32 (fst kl) /\ (forall e, In e (snd kl) -> fits32 e) /\ Z.of_nat (length (snd kl)) < 2 ^ 32 /\ snd kl <> []) es -> Forall once es ->
  (forall kl, In kl es -> dget orig (fst kl) = Some [(last (snd kl) 0, fst kl)]) ->
  write_entries orig (map (fun kl => (fst kl, map (fun e => (e, fst kl)) (snd kl))) es) = (flat_map (fun kl => entry_bytes (fst kl) (snd kl)) es, Ok tt).
Proof. intros Fo On G. induction es as [|kl es IH]; [reflexivity|]. inversion Fo as [|? ? (K & F & L & _) Fo']; subst. inversion On as [|? ? (pre & o & E & Ni) On']; subst. cbn [map write_entries flat_map].
  rewrite IH; [|exact Fo'|exact On'|intros x I; apply G; right; exact I]. pose proof (G kl (or_introl eq_refl)) as Gk. rewrite E, last_last in Gk.
  rewrite (write_entry_ok orig (fst kl) _ (map (fun e => (e, fst kl)) pre) (o, fst kl) []).
  - rewrite before_run. cbn [fst snd]. rewrite E. change [(o, fst kl)] with (map (fun e => (e, fst kl)) [o]). rewrite <- map_app, map_map. cbn [encoding fst]. rewrite map_id. reflexivity.
  - exists (o, fst kl), []. split; [exact Gk|]. split; [rewrite E, map_app; reflexivity|]. split; [reflexivity|]. intros c I. apply in_map_iff in I. destruct I as (e & <- & I). cbn. intros ->. exact (Ni I).
  - exact K.
  - intros c I. change [(o, fst kl)] with (map (fun e => (e, fst kl)) [o]) in I. rewrite <- map_app, <- E in I. apply in_map_iff in I. destruct I as (e & <- & I). apply F. exact I.
  - rewrite map_length. rewrite E, app_length in L. cbn [length] in L. lia. Qed.

(** C160. *)
Theorem C160_again : forall original program file, NoDup (dkeys program) -> write_binary original program = (file, Ok tt) ->
  exists original' program', read file = Ok (original', program') /\ write_binary original' program' = (file, Ok tt).
Proof. intros original program file N H. assert (W : Forall (writable original) program /\ Z.of_nat (length program) < 2 ^ 32).
  { unfold write_binary in H. apply before_ok in H. destruct H as (b1 & b2 & u & _ & H & _). apply before_ok in H. destruct H as (b3 & b4 & u2 & E & H & _). split; [eapply write_entries_inv, H|].
    destruct (put_cases 4 (Z.of_nat (length program))) as [[P _]|[_ X]]; [exact (proj2 P)|congruence]. }
  destruct W as [W L]. destruct (write_binary_ok original program W L) as (es & F2 & Fo & E). rewrite H in E. apply pair_equal_spec in E. destruct E as [-> _].
  pose proof (read_written original program es [] N L F2 Fo) as R. rewrite app_nil_r in R. unfold read. rewrite R. cbn [bind]. eexists _, _. split; [reflexivity|].
  assert (Le : length program = length es) by (eapply forall2_len, F2).
  assert (X : map fst es = dkeys program). { clear - F2. unfold dkeys. induction F2 as [|kv kl p es (pre & o' & post & _ & ->) F IH]; [reflexivity|]. cbn [map fst]. rewrite IH. reflexivity. }
  assert (On : Forall once es). { clear - F2. induction F2 as [|kv kl p es (pre & o' & post & (o & l & _ & _ & Eo & Nn) & ->) F IH]; constructor; [|exact IH]. exists (map encoding pre), (encoding o'). cbn [snd]. split; [apply map_app|]. intros I. apply in_map_iff in I. destruct I as (c & Ec & I). apply (Nn c I). congruence. }
  unfold write_binary. rewrite put_ok by (unfold magic_word; change (8 * Z.of_nat 8) with 64; lia). rewrite put_ok by (rewrite map_length; change (8 * Z.of_nat 4) with 32; lia). rewrite !before_run.
  rewrite (writes_again _ es Fo On); [cbn [fst snd]; rewrite map_length, Le; reflexivity|]. intros kl I. apply (get_back (fun kl => [(last (snd kl) 0, fst kl)]) es); [rewrite X; exact N|exact I]. Qed.
Print Assumptions C160_again.
Example C160_example : let o := [(4, [(7, 4)]); (8, [(9, 8)])] in let p := [(4, [(5, 4); (7, 4); (6, 4)]); (8, [(9, 8)])] in NoDup (dkeys p) /\
  exists file p', write_binary o p = (file, Ok tt) /\ read file = Ok (o, p') /\ p' <> p /\ write_binary o p' = (file, Ok tt).
Proof. cbv zeta. split; [repeat constructor; cbn; intuition discriminate|]. eexists _, _. split; [vm_compute; reflexivity|]. split; [vm_compute; reflexivity|]. split; [discriminate|vm_compute; reflexivity]. Qed.
