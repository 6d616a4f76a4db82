(** Model of semantic_codec/solution/solution_quality.py.  Printing is left out.
    Floats: log(k, 2) is the real logarithm; scores and depths are exact
    rationals. *)
From Verif Require Export Py.
From Coq Require Export QArith.
From Coq Require Export Reals.
Open Scope Z_scope.

(** A candidate: encoding, what str() prints (texts numbered), and its score(). *)
Record qcand := mkQ { q_enc : Z; q_text : Z; q_score : Q }.
Definition qprogram := dict (list qcand).

(** solution_quality.py:60-69: the bins. *)
Definition add_bin (bins : dict Z) (v : list qcand) : dict Z :=
  let k := Z.of_nat (length v) in
  match dget bins k with Some n => dset bins k (n + 1) | None => dset bins k 1 end.
Definition bins_of (p : qprogram) : dict Z := fold_left add_bin (dvalues p) [].
(** solution_quality.py:71-74. *)
Definition amount_of (bins : dict Z) : Z := fold_left (fun a kv => a + fst kv ^ snd kv) bins 0.
(** solution_quality.py:78-82. *)
Definition size_of (bins : dict Z) : R :=
  fold_left (fun s kv => if 1 <? fst kv then (s + ln (IZR (fst kv)) / ln 2 * IZR (snd kv))%R else s) bins 0%R.

(** The object: _solution_count is a number or None, the bins and the size are
    None until computed (solution_quality.py:13-31). *)
Record quality := mkQuality { qu_count : option Z; qu_bins : option (dict Z); qu_size : option R; qu_depth : option Q; qu_prog : qprogram }.
Definition new_quality (p : qprogram) := mkQuality (Some (-1)) None None None p.
(** _count_solutions (59-82). *)
Definition count_solutions (q : quality) : quality :=
  let bins := bins_of (qu_prog q) in mkQuality (Some (amount_of bins)) (Some bins) (Some (size_of bins)) (qu_depth q) (qu_prog q).
(** solution_count (53-57), solution_size (33-39), solution_count_bins (47-51).
    Comparing None with a number raises TypeError ([<=]) or is False ([==]). *)
Definition solution_count (q : quality) : quality * result (option Z) :=
  let q := match qu_count q with Some (-1) => count_solutions q | _ => q end in (q, Ok (qu_count q)).
Definition solution_size (q : quality) : quality * result (option R) :=
  match qu_count q with
  | None => (q, Err TypeError)
  | Some c =>
      let q := if c <=? -1 then count_solutions q else q in
      (q, Ok (match qu_count q with Some 0 => Some 0%R | _ => qu_size q end))
  end.
Definition solution_count_bins (q : quality) : quality * dict Z :=
  match qu_bins q with
  | Some (b :: bs) => (q, b :: bs)
  | _ => (count_solutions q, bins_of (qu_prog q))
  end.

(** solution_quality.py:97-101: sorting the candidates, best first. *)
Definition key (min_enc : Z) (c : qcand) : Q :=
  if min_enc =? 0 then 0%Q else (q_score c * 1000000000 + inject_Z min_enc / inject_Z (q_enc c))%Q.
Definition min_encoding (v : list qcand) : Z := fold_left (fun m c => if q_enc c <? m then q_enc c else m) v 9223372036854775807.
Fixpoint insert_desc (f : qcand -> Q) (a : qcand) (l : list qcand) : list qcand :=
  match l with
  | [] => [a]
  | b :: l' => if Qle_bool (f b) (f a) then a :: l else b :: insert_desc f a l'
  end.
Definition sort_desc (f : qcand -> Q) (l : list qcand) : list qcand := fold_right (insert_desc f) [] l.
Definition sorted_candidates (v : list qcand) : list qcand := sort_desc (key (min_encoding v)) v.
(** solution_quality.py:106-109. *)
Fixpoint depth_in (v : list qcand) (text : Z) : nat :=
  match v with [] => 0 | c :: v' => if q_text c =? text then 0 else S (depth_in v' text) end.
(** The originals: address, ignore, text. *)
Record qorig := mkO { o_addr : Z; o_ignore : bool; o_text : Z }.
(** solution_quality.py:92-121, one original; the depth bins are in DepthModel. *)
Definition evaluate_one (st : qprogram * Q) (o : qorig) : result (qprogram * Q) :=
  let '(p, depth) := st in
  if o_ignore o then Ok st
  else
    let* v := dget_r p (o_addr o) in
    let v := sorted_candidates v in
    if (length v =? 0)%nat then Err ZeroDivisionError
    else
      let r := (inject_Z (Z.of_nat (depth_in v (o_text o)) + 1) / inject_Z (Z.of_nat (length v)))%Q in
      Ok (dset p (o_addr o) v, if negb (Qle_bool r depth) then r else depth).
(** solution_quality.py:84-121: _count_solutions returns None, which is stored. *)
Definition evaluate (originals : list qorig) (q : quality) : result quality :=
  let q := count_solutions q in
  let* (p, depth) := foldM evaluate_one originals (qu_prog q, 0%Q) in
  Ok (mkQuality None (qu_bins q) (qu_size q) (Some depth) p).
