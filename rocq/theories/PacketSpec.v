(** Specification vocabulary for predicted errors and packet corruption. *)
From Verif Require Import Py InterleaveSpec PacketModel.
From Coq Require Import Sorted.

(** Stream bits designated by an error entry ([w] is the chunk size). *)
Definition error_bits (w : Z) (e : error) (x : Z) : Prop :=
  match e with
  | (word, bit, None) => 32 * word + bit <= x < 32 * word + bit + w
  | (word, bit, Some n) => 32 * word + bit <= x < 32 * word + bit + n
  end.

Definition predicted (w : Z) (errors : list error) (x : Z) : Prop :=
  exists e, In e errors /\ error_bits w e x.

(** Bit [x] of the data belongs to a chunk carried by a lost packet. *)
Definition lost_bit (order : list Z) (w words : Z) (lost : list Z) (x : Z) : Prop :=
  0 <= x < 32 * words /\ In (carrier order (x / w)) lost.

(** Chunk [t] of a lost packet starts inside the data, and so does the chunk that
    the first listed lost packet carries in the same round of the order. *)
Definition announced (order : list Z) (w words : Z) (lost : list Z) (t : Z) : Prop :=
  0 <= t /\ w * t < 32 * words /\ In (carrier order t) lost /\
  exists t0, t0 / Z.of_nat (length order) = t / Z.of_nat (length order) /\
             hd_error lost = Some (carrier order t0) /\ w * t0 < 32 * words.

(** What is reported for chunk [t]: its own bits unless it reaches the end of its
    word, in which case bit 31 of the word is replaced by the bit after the chunk. *)
Definition reported (w t x : Z) : Prop :=
  if chunk_bit w t + w <? 32 then w * t <= x < w * t + w
  else w * t <= x <= w * t + w /\ x <> 32 * chunk_word w t + 31.

(** Well-formed input of the corruptor: addresses are distinct and encodings are words. *)
Definition good_program (prog : program) : Prop :=
  NoDup (dkeys prog) /\ Forall (fun kv => Forall (fun i => 0 <= i_enc i < 2 ^ 32) (snd kv)) prog.

Definition sorted_by_encoding (l : list inst) : Prop := StronglySorted (fun a b => i_enc a <= i_enc b) l.

(** The [i]-th lowest address. *)
Definition nth_address (prog : program) (i : Z) (a : Z) : Prop :=
  In a (dkeys prog) /\ Z.of_nat (length (filter (fun b => b <? a) (dkeys prog))) = i.

(** The first listed lost packet carries some of the data. *)
Definition first_inside (order : list Z) (w nwords : Z) (lost : list Z) : Prop :=
  exists t0, 0 <= t0 < Z.of_nat (length order) /\ hd_error lost = Some (carrier order t0) /\ w * t0 < 32 * nwords.
