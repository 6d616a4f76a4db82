(** Model of semantic_codec/compressor/huffman.py.
    Symbols are integers (registers, opcode and condition fields), weights are
    integers; a code word is the list of its characters, '0' as [false] and '1'
    as [true]. *)
From Verif Require Export Py.

Definition code := list bool.
(** A heap entry [[wt, [sym, code], [sym, code], ...]]. *)
Definition item : Type := Z * list (Z * code).

(** Python comparison of strings and lists: the first difference decides, a proper
    prefix is smaller. *)
Fixpoint code_ltb (a b : code) : bool :=
  match a, b with
  | _, [] => false
  | [], _ :: _ => true
  | x :: a', y :: b' => if Bool.eqb x y then code_ltb a' b' else negb x && y
  end.
Definition pair_ltb (p q : Z * code) : bool := (fst p <? fst q) || ((fst p =? fst q) && code_ltb (snd p) (snd q)).
Definition pair_eqb (p q : Z * code) : bool := (fst p =? fst q) && negb (code_ltb (snd p) (snd q)) && negb (code_ltb (snd q) (snd p)).
Fixpoint pairs_ltb (a b : list (Z * code)) : bool :=
  match a, b with
  | _, [] => false
  | [], _ :: _ => true
  | x :: a', y :: b' => if pair_eqb x y then pairs_ltb a' b' else pair_ltb x y
  end.
Definition item_ltb (a b : item) : bool := (fst a <? fst b) || ((fst a =? fst b) && pairs_ltb (snd a) (snd b)).

(** heapq (library): the heap is the list of its entries and [heappop] removes the
    least one.  The entries are pairwise different (they hold different symbols),
    so which one is popped does not depend on the layout of the heap. *)
Fixpoint heappop (heap : list item) : result (item * list item) :=
  match heap with
  | [] => Err IndexError
  | x :: h => match heappop h with
              | Ok (m, r) => if item_ltb m x then Ok (m, x :: r) else Ok (x, h)
              | Err _ => Ok (x, h)
              end
  end.

(** huffman.py:138-145, the [while] loop. *)
Fixpoint encode_loop (fuel : nat) (heap : list item) : result (list item) :=
  match heap with
  | _ :: _ :: _ =>
    match fuel with
    | O => Err OutOfFuel
    | S fuel' =>
      let* (lo, h1) := heappop heap in
      let* (hi, h2) := heappop h1 in
      let lo' := map (fun p : Z * code => (fst p, false :: snd p)) (snd lo) in
      let hi' := map (fun p : Z * code => (fst p, true :: snd p)) (snd hi) in
      encode_loop fuel' ((fst lo + fst hi, lo' ++ hi') :: h2)
    end
  | _ => Ok heap
  end.

(** [sorted(..., key=lambda p: (len(p[-1]), p))] *)
Definition pair_before (p q : Z * code) : bool :=
  (length (snd p) <? length (snd q))%nat || ((length (snd p) =? length (snd q))%nat && negb (pair_ltb q p)).
Fixpoint insert_pair (p : Z * code) (l : list (Z * code)) : list (Z * code) :=
  match l with [] => [p] | q :: l' => if pair_before p q then p :: l else q :: insert_pair p l' end.
Definition sort_pairs (l : list (Z * code)) : list (Z * code) := fold_right insert_pair [] l.

(** huffman.py:134-146 [encode]; each turn leaves one entry less. *)
Definition encode (freq : dict Z) : result (list (Z * code)) :=
  let* heap := encode_loop (length freq) (map (fun sw : Z * Z => (snd sw, [(fst sw, [])])) freq) in
  let* (top, _) := heappop heap in
  Ok (sort_pairs (snd top)).

(** huffman.py:149-155 [huffman_size]; [huff] is [None] or a given code (an empty
    one counts as absent). *)
Definition huffman_size (freq : dict Z) (huff : option (list (Z * code))) : result Z :=
  let* h := match huff with
            | None | Some [] => encode freq
            | Some h => Ok h
            end in
  foldM (fun size p => let* w := dget_r freq (fst p) in Ok (size + w * Z.of_nat (length (snd p)))) h 0.

(** collections.Counter of a list: how often each value occurs, in order of first
    occurrence. *)
Definition counter (l : list Z) : dict Z :=
  fold_left (fun d k => dset d k (match dget d k with Some n => n | None => 0 end + 1)) l [].

(** huffman.py:99-123 [freq_info].  Instructions have no [__eq__], so [p not in l]
    compares identities: the program is the list of its objects' identities and
    [x] gives the fields of an object (or raises). *)
Definition freq_item (p : Z) (st : dict Z * dict (list Z)) (kr : Z * Z) : dict Z * dict (list Z) :=
  let '(freq, with_) := st in
  let '(k, r) := kr in
  let with' := match dget with_ k with
               | None => dset with_ k [p]
               | Some ps => if existsb (Z.eqb p) ps then with_ else dset with_ k (ps ++ [p])
               end in
  let freq0 := match dget freq k with None => dset freq k 0 | Some _ => freq end in
  (dset freq0 k (match dget freq0 k with Some n => n | None => 0 end + r), with').
Definition freq_info (program : list Z) (x : Z -> result (list Z)) : result (dict Z * dict (list Z)) :=
  foldM (fun st p => let* fields := x p in Ok (fold_left (freq_item p) (counter fields) st)) program ([], []).
