(** Specification vocabulary for interleaving: the data as a stream of chunks. *)
From Verif Require Import Py BitsSpec QueueModel.

(** Number of [w]-bit chunks of the data. *)
Definition nchunks (data : list Z) (w : Z) : Z := Z.of_nat (length data) * (32 / w).

(** Chunk [t] sits in word [w*t / 32] at bit [w*t mod 32]. *)
Definition chunk_word (w t : Z) : Z := w * t / 32.
Definition chunk_bit (w t : Z) : Z := (w * t) mod 32.
Definition chunk (data : list Z) (w t : Z) : Z :=
  field (nth (Z.to_nat (chunk_word w t)) data 0) (chunk_bit w t) w.

(** Packet that carries chunk [t]. *)
Definition carrier (order : list Z) (t : Z) : Z :=
  nth (Z.to_nat (t mod Z.of_nat (length order))) order (-1).

(** A packet is received when its key is present with a queue. *)
Definition received {A} (rx : dict (option A)) (p : Z) : bool :=
  match dget rx p with Some (Some _) => true | _ => false end.

(** [rx] is what is left of the transmitted packets [tx]. *)
Definition remains_of {A} (rx : dict (option A)) (tx : dict A) (order : list Z) : Prop :=
  forall p q, In p order -> dget rx p = Some (Some q) -> dget tx p = Some q.

(** Index of the last received packet in the order, all later ones being None. *)
Definition last_received {A} (rx : dict (option A)) (order : list Z) (L : Z) : Prop :=
  0 <= L < Z.of_nat (length order) /\
  received rx (nth (Z.to_nat L) order (-1)) = true /\
  forall i, L < i < Z.of_nat (length order) -> dget rx (nth (Z.to_nat i) order (-1)) = Some None.

(** Packets as received without any loss. *)
Definition all_received (tx : dict bitqueue) : dict (option bitqueue) := map (fun kv => (fst kv, Some (snd kv))) tx.

(** A matrix of packet numbers of the given shape. *)
Definition packet_matrix (M : list (list Z)) (width height m : Z) : Prop :=
  Z.of_nat (length M) = height /\
  Forall (fun row => Z.of_nat (length row) = width /\ Forall (fun p => 0 <= p < m) row) M.
