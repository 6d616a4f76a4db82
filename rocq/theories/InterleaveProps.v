(** Property theorems C13 - C16 (interleave, deinterleave) and C21 (Blaum matrix). *)
From Verif Require Import BitsSpec QueueModel SPModel InterleaveModel InterleaveSpec InterleaveProofs DeinterleaveProofs
  BlaumModel BlaumProofs.

Definition sample : list Z := [3; 4; 8; 3; 5; 1; 1; 4; 9; 0; 4; 6; 2; 0; 1; 4].
Definition order16 : list Z := match build_2d_interleave_sp 16 with Ok m => m | Err _ => [] end.

(** C13: interleave never raises, creates one queue per packet number of the
    order, and the queue of packet [p] is the one obtained by enqueueing, in
    stream order, exactly the chunks [t] whose carrier [order[t mod P]] is [p]. *)
Theorem C13_round_robin : forall data order w, 0 < w -> (w | 32) -> order <> [] ->
  exists packets, interleave data order w = Ok packets /\
    (forall p, In p (dkeys packets) <-> In p order) /\ NoDup (dkeys packets) /\
    forall p, In p order -> exists xs q,
      bq_run (bq_new w)
        (map (fun t => QEnq (nth (Z.to_nat (chunk_word w t)) data 0) (chunk_bit w t))
           (filter (fun t => carrier order t =? p) (zrange 0 (nchunks data w)))) = Ok (xs, q) /\
      dget packets p = Some q.
Proof. exact interleave_round_robin. Qed.
Print Assumptions C13_round_robin.

(** Non-vacuity, with the values of tests/test_interleave2D.py:46-55. *)
Example C13_example : exists d q8 q0, interleave sample order16 2 = Ok d /\
  dget d 8 = Some q8 /\ bq_get_bytes q8 = [1079132452; 0] /\
  dget d 0 = Some q0 /\ bq_get_bytes q0 = [310449603; 0] /\ length d = 16%nat.
Proof. do 3 eexists. do 5 (split; [vm_compute; reflexivity|]). vm_compute; reflexivity. Qed.

(** C14, the part that holds: at least two packets and a chunk count that is a
    multiple of the packet count.  (Words are read as 32-bit words; a zero
    word follows the data.) *)
Theorem C14_round_trip_partial : forall data order w, 0 < w -> (w | 32) -> NoDup order -> (2 <= length order)%nat ->
  (Z.of_nat (length order) | nchunks data w) ->
  exists tx, interleave data order w = Ok tx /\
    deinterleave (all_received tx) order w = Ok (map (fun x => x mod 2 ^ 32) data ++ [0], []).
Proof. exact round_trip. Qed.
Print Assumptions C14_round_trip_partial.

(** C14, exact behaviour for two packets or more: the chunks after the last
    complete round are replaced by zeros, all others come back, no error is reported. *)
Theorem C14_round_trip_exact : forall data order w, 0 < w -> (w | 32) -> NoDup order -> (2 <= length order)%nat ->
  let P := Z.of_nat (length order) in let T := nchunks data w in
  exists tx words, interleave data order w = Ok tx /\
    deinterleave (all_received tx) order w = Ok (words, []) /\
    Forall (fun x => 0 <= x < 2 ^ 32) words /\
    forall t, 0 <= t -> chunk words w t = if t <? P * (T / P) then chunk data w t else 0.
Proof. exact round_trip_exact. Qed.
Print Assumptions C14_round_trip_exact.

(** C14, one packet: deinterleave always raises although nothing is lost. *)
Theorem C14_single_packet_refuted : forall data p w, 0 < w -> (w | 32) ->
  exists tx, interleave data [p] w = Ok tx /\ deinterleave (all_received tx) [p] w = Err RuntimeError.
Proof. exact single_packet. Qed.
Print Assumptions C14_single_packet_refuted.

(** C14 as stated is false: seven packets, two words. *)
Theorem C14_round_trip_refuted : exists data order w tx words errors,
  0 < w /\ (w | 32) /\ NoDup order /\ (2 <= length order)%nat /\ Forall (fun x => 0 <= x < 2 ^ 32) data /\
  interleave data order w = Ok tx /\
  deinterleave (all_received tx) order w = Ok (words, errors) /\ firstn (length data) words <> data.
Proof. exists [1; 0xFF000000], [0; 1; 2; 3; 4; 5; 6], 2. do 3 eexists.
  split; [reflexivity|]. split; [exists 16; reflexivity|].
  split; [repeat constructor; cbn; intuition discriminate|]. split; [cbn; lia|].
  split; [repeat constructor; reflexivity || discriminate|].
  split; [vm_compute; reflexivity|]. split; [vm_compute; reflexivity|]. vm_compute. discriminate. Qed.
Print Assumptions C14_round_trip_refuted.

Example C14_example : exists tx, interleave sample order16 2 = Ok tx /\ NoDup order16 /\
  (Z.of_nat (length order16) | nchunks sample 2) /\
  deinterleave (all_received tx) order16 2 = Ok (sample ++ [0], []).
Proof. eexists. split; [vm_compute; reflexivity|]. split; [|split].
  - vm_compute. repeat constructor; cbn; intuition discriminate.
  - exists 16. reflexivity.
  - vm_compute. reflexivity. Qed.

(** C15, the part that holds: chunk count a multiple of the packet count and the
    last surviving packet not the first of the order (which would raise, C16). *)
Theorem C15_losses_partial : forall data order w tx rx L, 0 < w -> (w | 32) -> NoDup order ->
  (Z.of_nat (length order) | nchunks data w) ->
  interleave data order w = Ok tx -> remains_of rx tx order -> last_received rx order L -> 1 <= L ->
  exists words,
    deinterleave rx order w =
      Ok (words, map (fun t => (chunk_word w t, chunk_bit w t))
                     (filter (fun t => negb (received rx (carrier order t))) (zrange 0 (nchunks data w)))) /\
    length words = S (length data) /\
    Forall (fun x => 0 <= x < 2 ^ 32) words /\
    nth (length data) words 0 = 0 /\
    (forall t, 0 <= t < nchunks data w ->
       chunk words w t = if received rx (carrier order t) then chunk data w t else 0).
Proof. exact deinterleave_divisible. Qed.
Print Assumptions C15_losses_partial.

(** C15, exact behaviour without the divisibility assumption: the stream stops
    after the last round in which the last surviving packet has a chunk. *)
Theorem C15_losses_exact : forall data order w tx rx L, 0 < w -> (w | 32) -> NoDup order ->
  interleave data order w = Ok tx -> remains_of rx tx order -> last_received rx order L -> 1 <= L ->
  let P := Z.of_nat (length order) in
  let N := P * ((nchunks data w - 1 - L) / P + 1) in
  exists words,
    deinterleave rx order w =
      Ok (words, map (fun t => (chunk_word w t, chunk_bit w t))
                     (filter (fun t => negb (received rx (carrier order t))) (zrange 0 N))) /\
    Z.of_nat (length words) = w * N / 32 + 1 /\
    Forall (fun x => 0 <= x < 2 ^ 32) words /\
    (forall t, 0 <= t < N -> chunk words w t = if received rx (carrier order t) then chunk data w t else 0) /\
    (forall i, w * N <= i -> Z.testbit (nth (Z.to_nat (i / 32)) words 0) (i mod 32) = false).
Proof. exact deinterleave_stream. Qed.
Print Assumptions C15_losses_exact.

(** C15 as stated is false: chunk 29 travels in the received packet 1, is not
    zero, and is neither returned nor reported. *)
Theorem C15_losses_refuted : exists data order w tx rx words errors t,
  0 < w /\ (w | 32) /\ NoDup order /\ interleave data order w = Ok tx /\ remains_of rx tx order /\
  last_received rx order 6 /\ deinterleave rx order w = Ok (words, errors) /\
  0 <= t < nchunks data w /\ received rx (carrier order t) = true /\
  chunk words w t <> chunk data w t /\ ~ In (chunk_word w t, chunk_bit w t) errors.
Proof.
  exists [1; 0xFF000000], [0; 1; 2; 3; 4; 5; 6], 2. eexists.
  exists (match interleave [1; 0xFF000000] [0; 1; 2; 3; 4; 5; 6] 2 with
          | Ok tx => dset (all_received tx) 3 None | Err _ => [] end).
  do 2 eexists. exists 29.
  split; [reflexivity|]. split; [exists 16; reflexivity|].
  split; [repeat constructor; cbn; intuition discriminate|].
  split; [vm_compute; reflexivity|].
  split.
  { intros p q Hp. cbn in Hp. destruct Hp as [<-|[<-|[<-|[<-|[<-|[<-|[<-|[]]]]]]]]; vm_compute; congruence. }
  split.
  { split; [cbn; lia|]. split; [vm_compute; reflexivity|]. intros i Hi. cbn [length] in Hi. lia. }
  split; [vm_compute; reflexivity|]. split; [split; [discriminate|reflexivity]|].
  split; [vm_compute; reflexivity|]. split; [vm_compute; discriminate|].
  vm_compute. intuition discriminate. Qed.
Print Assumptions C15_losses_refuted.

(** Non-vacuity: the loss pattern of tests/test_interleave2D.py:125-130 (packets
    2, 3 and 4 deleted), with the errors the test expects. *)
Example C15_example :
  let rx := match interleave sample order16 2 with
            | Ok tx => filter (fun kv => negb ((fst kv =? 2) || (fst kv =? 3) || (fst kv =? 4))) (all_received tx)
            | Err _ => [] end in
  received rx 3 = false /\ received rx 5 = true /\
  exists words errors, deinterleave rx order16 2 = Ok (words, errors) /\
  forallb (fun e => existsb (fun x => (fst x =? fst e) && (snd x =? snd e)) errors) [(0, 4); (0, 10); (0, 16); (10, 4); (10, 10); (10, 16); (14, 16); (15, 4); (15, 10)] = true.
Proof. split; [vm_compute; reflexivity|]. split; [vm_compute; reflexivity|]. do 2 eexists.
  split; vm_compute; reflexivity. Qed.

(** C16, exact: RuntimeError is raised when the only information left is the
    first packet of the order ... *)
Theorem C16_total_loss_partial : forall data order w tx rx, 0 < w -> (w | 32) -> NoDup order -> order <> [] ->
  interleave data order w = Ok tx -> remains_of rx tx order ->
  (deinterleave rx order w = Err RuntimeError <-> last_received rx order 0).
Proof. exact runtime_error_iff. Qed.
Print Assumptions C16_total_loss_partial.

(** ... and these are all the outcomes. *)
Theorem C16_outcomes_partial : forall data order w tx rx, 0 < w -> (w | 32) -> NoDup order -> order <> [] ->
  interleave data order w = Ok tx -> remains_of rx tx order ->
  (last_received rx order 0 /\ deinterleave rx order w = Err RuntimeError) \/
  ((exists L, 1 <= L /\ last_received rx order L) /\ exists r, deinterleave rx order w = Ok r) \/
  ((forall p, In p order -> dget rx p = Some None) /\ deinterleave rx order w = Err AttributeError) \/
  ((exists p, In p order /\ dget rx p = None) /\ deinterleave rx order w = Err KeyError).
Proof. exact deinterleave_outcome. Qed.
Print Assumptions C16_outcomes_partial.

(** C16 as stated is false in both directions: total loss gives another
    exception, and RuntimeError is raised with one packet left. *)
Theorem C16_total_loss_refuted : exists data order w tx, interleave data order w = Ok tx /\ NoDup order /\
  (let rx := map (fun kv => (fst kv, None)) tx in
   (forall p, In p order -> received rx p = false) /\ deinterleave rx order w = Err AttributeError) /\
  (let rx := map (fun kv => (fst kv, if fst kv =? 0 then Some (snd kv) else None)) tx in
   received rx 0 = true /\ In 0 order /\ deinterleave rx order w = Err RuntimeError).
Proof. exists [5], [0; 1], 2. eexists. split; [vm_compute; reflexivity|].
  split; [repeat constructor; cbn; intuition discriminate|]. split.
  - split; [|vm_compute; reflexivity]. intros p [<-|[<-|[]]]; vm_compute; reflexivity.
  - split; [vm_compute; reflexivity|]. split; [left; reflexivity|vm_compute; reflexivity]. Qed.
Print Assumptions C16_total_loss_refuted.
Example C16_example : exists tx, interleave [5] [0; 1] 2 = Ok tx /\
  exists r, deinterleave (dset (all_received tx) 0 None) [0; 1] 2 = Ok r.
Proof. eexists. split; [vm_compute; reflexivity|]. eexists. vm_compute. reflexivity. Qed.

(** C21: shape and range of the Blaum matrix; m is the rounded number of packets. *)
Theorem C21_blaum : forall message_size packet_size dw dh, 0 < packet_size -> packet_size < 2 * message_size ->
  exists m, 2 * Z.abs (m * packet_size - message_size) <= packet_size /\ 1 <= m /\
  (0 <= dw -> 0 <= dh -> exists M, blaum message_size packet_size dw dh = Ok M /\ packet_matrix M dw dh m) /\
  (0 < dw -> dh = -1 -> exists h M, blaum message_size packet_size dw dh = Ok M /\
     2 * Z.abs (h * dw - message_size) <= dw /\ packet_matrix M dw h m) /\
  (dw = -1 -> 0 < dh -> exists w M, blaum message_size packet_size dw dh = Ok M /\
     2 * Z.abs (w * dh - message_size) <= dh /\ packet_matrix M w dh m).
Proof. exact blaum_spec. Qed.
Print Assumptions C21_blaum.
Theorem C21_blaum_error : forall message_size packet_size dw dh,
  blaum message_size packet_size dw dh = Err RuntimeError <-> dw = -1 /\ dh = -1.
Proof. exact blaum_runtime_error. Qed.
Print Assumptions C21_blaum_error.
Example C21_example : blaum 20 4 4 (-1) = Ok [[0; 1; 2; 3]; [3; 2; 1; 0]; [1; 0; 4; 3]; [4; 3; 2; 1]; [2; 1; 0; 4]].
Proof. vm_compute. reflexivity. Qed.
