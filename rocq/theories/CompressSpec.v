(** Vocabulary for the compressor claims; independent of the model. *)
From Verif Require Export Py.

(** Bit [n] of the data as it goes over the wire: words in little endian byte order,
    each byte with the most significant bit first. *)
Definition wire_bit (data : list Z) (n : Z) : bool :=
  Z.testbit (nth (Z.to_nat (n / 32)) data 0) (8 * (n mod 32 / 8) + 7 - n mod 8).
(** Bit [n] of a byte string, most significant bit of each byte first. *)
Definition stream_bit (bytes : list Z) (n : Z) : bool :=
  Z.testbit (nth (Z.to_nat (n / 8)) bytes 0) (7 - n mod 8).
(** The byte string that holds exactly the given bits, filled with zeros. *)
Definition holds_bits (bytes : list Z) (bits : list bool) : Prop :=
  Forall (fun b => 0 <= b < 256) bytes /\ (length bytes = (length bits + 7) / 8)%nat /\
  forall n, 0 <= n < 8 * Z.of_nat (length bytes) -> stream_bit bytes n = nth (Z.to_nat n) bits false.
(** The wire bits whose position is not removed, in order. *)
Definition kept_bits (removed : Z -> bool) (data : list Z) : list bool :=
  map (wire_bit data) (filter (fun n => negb (removed n)) (zrange 0 (32 * Z.of_nat (length data)))).
