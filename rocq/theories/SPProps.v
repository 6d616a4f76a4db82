(** Property theorems C09-C12 (successive packing and packet orders). *)
From Verif Require Import SPModel SPSpec SPProofs.
From Coq Require Import Permutation.

(** C09: a 2^m x 2^m matrix with every number 0 .. 4^m-1 exactly once. *)
Theorem C09_numbering : forall m, 0 <= m ->
  (Z.of_nat (length (sucesive_packing m)) = 2 ^ m /\
   Forall (fun r => Z.of_nat (length r) = 2 ^ m) (sucesive_packing m)) /\
  Permutation (concat (sucesive_packing m)) (zrange 0 (4 ^ m)).
Proof. exact (fun m H => conj (sp_shape m H) (sp_perm m H)). Qed.
Print Assumptions C09_numbering.

Theorem C09_degenerate : forall m, m <= 0 -> sucesive_packing m = [[0]].
Proof. exact sp_nonpos. Qed.
Print Assumptions C09_degenerate.
(** Also the values asserted by tests/test_interleave2D.py:17-32. *)
Example C09_example :
  sucesive_packing 2 = [[0; 8; 2; 10]; [12; 4; 14; 6]; [3; 11; 1; 9]; [15; 7; 13; 5]] /\
  entry (sucesive_packing 3) 7 7 = 21 /\ entry (sucesive_packing 3) 3 1 = 28 /\
  entry (sucesive_packing 3) 4 2 = 11 /\ entry (sucesive_packing 3) 3 6 = 54.
Proof. vm_compute. repeat split. Qed.

(** C10: any (cyclic) 2^k x 2^k window meets each block of 4^(m-k) consecutive
    numbers exactly once. *)
Theorem C10_burst_spread : forall m k a b, 0 <= k <= m ->
  Permutation
    (map (fun p => entry (sucesive_packing m) ((a + fst p) mod 2 ^ m) ((b + snd p) mod 2 ^ m) / 4 ^ (m - k))
         (list_prod (zrange 0 (2 ^ k)) (zrange 0 (2 ^ k))))
    (zrange 0 (4 ^ k)).
Proof. exact sp_window. Qed.
Print Assumptions C10_burst_spread.
Example C10_example : 0 <= 1 <= 3 /\
  map (fun p => entry (sucesive_packing 3) ((7 + fst p) mod 2 ^ 3) ((2 + snd p) mod 2 ^ 3))
      (list_prod (zrange 0 2) (zrange 0 2)) = [55; 23; 8; 40].
Proof. split; [lia|vm_compute; reflexivity]. Qed.

(** C11: the packet order is a permutation of 0 .. P-1, in rows or flat. *)
Theorem C11_order_permutation : forall P,
  (1 <= P -> exists rows, build_2d_interleave_sp_rows P = Ok rows /\
       build_2d_interleave_sp P = Ok (concat rows) /\ Permutation (concat rows) (zrange 0 P)) /\
  (P <= 0 -> build_2d_interleave_sp_rows P = Err IndexError /\ build_2d_interleave_sp P = Err IndexError).
Proof. exact build_perm. Qed.
Print Assumptions C11_order_permutation.
(** Values of tests/test_interleave2D.py:34-38. *)
Example C11_example : exists rows, build_2d_interleave_sp_rows 241 = Ok rows /\
  entry rows 0 0 = 0 /\ entry rows 6 0 = 240 /\ entry rows 7 7 = 26.
Proof. eexists; split; [vm_compute; reflexivity|]. vm_compute. repeat split. Qed.

(** C12: what store_packets.py gets for [n] instructions ([n/4] packets). *)
Theorem C12_store_order_partial : forall n, 1 <= n ->
  (n mod 4 = 0 -> exists o, store_packets_order n = Ok o /\ Permutation o (zrange 0 (n / 4))) /\
  (n mod 4 = 1 -> exists o, store_packets_order n = Ok o /\ Permutation o (0 :: zrange 0 (n / 4))) /\
  (2 <= n mod 4 -> store_packets_order n = Err TypeError).
Proof. exact store_order_spec. Qed.
Print Assumptions C12_store_order_partial.

(** It is usable exactly for multiples of four (and for one instruction). *)
Theorem C12_usable_exactly : forall n, 1 <= n ->
  ((exists o, store_packets_order n = Ok o /\ NoDup o) <-> (n mod 4 = 0 \/ n = 1)).
Proof. exact store_order_usable. Qed.
Print Assumptions C12_usable_exactly.

Theorem C12_store_order_refuted :
  exists n, 1 <= n /\ ~ (exists o, store_packets_order n = Ok o /\ NoDup o).
Proof. exact store_order_unusable. Qed.
Print Assumptions C12_store_order_refuted.
Example C12_example : store_packets_order 28 = Ok [0; 2; 4; 5; 6; 3; 1] /\
  store_packets_order 5 = Ok [0; 0] /\ store_packets_order 6 = Err TypeError.
Proof. vm_compute. repeat split. Qed.
