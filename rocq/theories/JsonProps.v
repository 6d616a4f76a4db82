(** Property theorem C29 (corrupted programs in JSON files). *)
From Verif Require Import ListLemmas FlipSpec PacketModel PacketSpec RandomModel RandomSpec RandomProofs JsonModel JsonProofs.
From Coq Require Import ZifyBool ZifyNat.

(** Addresses, in order, with the encodings of their candidates, in order. *)
Definition encodings (prog : program) : list (Z * list Z) := map (fun kv => (fst kv, map i_enc (snd kv))) prog.

(** C29, for every program with distinct addresses and 32-bit encodings. *)
Theorem C29_json_round_trip : forall prog, good_program prog ->
  exists prog', load_json (save_json prog) = Ok prog' /\ encodings prog' = encodings prog /\
    forall a l i, dget prog' a = Some l -> In i l -> i_addr i = a.
Proof. intros prog [N F]. exists (map (fun kv => (fst kv, map (fun i => mkInst (i_enc i) (fst kv)) (snd kv))) prog).
  split; [apply load_save; assumption|]. split.
  - unfold encodings. rewrite map_map. apply map_ext. intros [k l]. cbn [fst snd]. rewrite map_map. reflexivity.
  - intros a l i H Hi. apply dget_in in H. apply in_map_iff in H. destruct H as ([k l0] & E & _). cbn [fst snd] in E.
    assert (a = k) as -> by congruence. assert (E2 : l = map (fun i => mkInst (i_enc i) k) l0) by congruence. subst l.
    apply in_map_iff in Hi. destruct Hi as (j & <- & _). reflexivity. Qed.
Print Assumptions C29_json_round_trip.

(** Instructions that sit at their own address come back identical. *)
Theorem C29_json_identity : forall prog, good_program prog ->
  (forall a l i, In (a, l) prog -> In i l -> i_addr i = a) -> load_json (save_json prog) = Ok prog.
Proof. intros prog [N F] H. rewrite load_save by assumption. apply (f_equal Ok). rewrite <- (map_id prog) at 2. apply map_ext_in. intros [k l] Hkl. cbn [fst snd]. f_equal.
  rewrite <- (map_id l) at 2. apply map_ext_in. intros i Hi. rewrite <- (H k l i Hkl Hi). destruct i; reflexivity. Qed.
Print Assumptions C29_json_identity.
Example C29_example :
  let p := [(8, [mkInst 0xe92d4800 8; mkInst 5 8]); (-4, []); (4, [mkInst 0 4])] in
  load_json (save_json p) = Ok p /\
  string_of_list_ascii (save_json [(4, [mkInst 12 4])]) = String.concat (String "010" "") ["{"; "  ""4"": ["; "    12"; "  ]"; "}"]%string.
Proof. cbv zeta. split; vm_compute; reflexivity. Qed.

(** What a random corruptor saves is what a JSON corruptor then produces, for any
    program it is applied to. *)
Theorem C29_saved_corruption_reloads : forall percent maxa prog ds prog' t other,
  good_program prog -> random_corrupt percent maxa true true prog ds = Ok (prog', Some t) ->
  exists prog'', json_corrupt (Some t) other = Ok prog'' /\ encodings prog'' = encodings prog'.
Proof. intros percent maxa prog ds prog' t other [N F] H. unfold random_corrupt in H.
  destruct (corrupt_program prog percent maxa ds) as [[p ds']|] eqn:E; cbn [bind] in H; [|discriminate].
  assert (p = prog') as -> by congruence. assert (t = save_json prog') as -> by congruence.
  assert (G : good_program prog').
  { unfold corrupt_program in E. destruct (corrupted_amount (Z.of_nat (List.length prog)) percent) as [count|]; cbn [bind] in E; [|discriminate].
    apply corrupt_loop_spec in E; [|lia]. destruct E as (changed & (K & _ & C & O) & _). split; [rewrite K; exact N|].
    apply Forall_forall. intros [a l] Hal. cbn [snd]. assert (Nk : NoDup (dkeys prog')) by (rewrite K; exact N).
    apply (dget_nodup_in _ _ _ Nk) in Hal. rewrite Forall_forall in F.
    destruct (in_dec Z.eq_dec a changed) as [Hc|Hc].
    - destruct (C a Hc) as (i & l' & G1 & G2 & (new & -> & _ & _ & Fn)). assert (l = i :: new) as -> by congruence.
      apply dget_in in G1. specialize (F _ G1). cbn [snd] in F. inversion F; subst. constructor; [assumption|]. eapply Forall_impl; [|exact Fn]. cbn beta. intros j Hj. tauto.
    - rewrite (O a Hc) in Hal. apply dget_in in Hal. exact (F _ Hal). }
  destruct (C29_json_round_trip prog' G) as (p2 & A & B & _). exists p2. auto. Qed.
Print Assumptions C29_saved_corruption_reloads.
