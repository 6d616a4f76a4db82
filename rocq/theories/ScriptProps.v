(** C153, C154: the scripts that improve a program for Huffman codes and compare files. *)
From Coq Require Import String Ascii.
From Verif Require Import ListLemmas ReaderProofs HuffmanSpec HuffmanProps CompressProps ScriptModel.
From Coq Require Import ZifyBool ZifyNat Permutation.
From Coq Require Import List.
Open Scope Z_scope.
Open Scope list_scope.

(** ** C153 *)
(** The fewest bits in which a sequence of symbols can be written with a prefix code. *)
Definition fewest_bits (seq : list Z) (n : Z) : Prop :=
  (exists c, prefix_free seq c /\ Z.of_nat (length (message c seq)) = n) /\
  forall c, prefix_free seq c -> n <= Z.of_nat (length (message c seq)).

Lemma total_add syms w c x : NoDup syms -> In x syms ->
  total_length syms (fun s => w s + (if x =? s then 1 else 0)) c = total_length syms w c + Z.of_nat (length (c x)).
Proof. unfold total_length. intros N. induction N as [|s syms Hs N IH]; intros I; [destruct I|]. cbn [fold_right]. destruct (Z.eqb_spec x s) as [->|E].
  - assert (X : fold_right (fun s0 n => (w s0 + (if s =? s0 then 1 else 0)) * Z.of_nat (length (c s0)) + n) 0 syms = fold_right (fun s0 n => w s0 * Z.of_nat (length (c s0)) + n) 0 syms).
    { clear - Hs. induction syms as [|y syms IH]; [reflexivity|]. cbn [fold_right]. rewrite IH by (intros X; apply Hs; right; exact X). destruct (Z.eqb_spec s y) as [->|_]; [exfalso; apply Hs; left; reflexivity|]. lia. }
    rewrite X. lia.
  - destruct I as [I|I]; [congruence|]. rewrite (IH I). lia. Qed.
Lemma total_ext syms w w' c : (forall s, In s syms -> w s = w' s) -> total_length syms w c = total_length syms w' c.
Proof. unfold total_length. induction syms as [|s syms IH]; intros H; [reflexivity|]. cbn [fold_right]. rewrite IH by (intros x I; apply H; right; exact I). rewrite (H s) by (left; reflexivity). reflexivity. Qed.
Lemma total_message syms c : NoDup syms -> forall seq, incl seq syms -> total_length syms (fun s => Z.of_nat (count_occ Z.eq_dec seq s)) c = Z.of_nat (length (message c seq)).
Proof. intros N. induction seq as [|x seq IH]; intros I.
  - cbn [count_occ message flat_map length]. clear. unfold total_length. induction syms as [|s syms IH]; [reflexivity|]. cbn [fold_right]. rewrite IH. lia.
  - cbn [message flat_map]. rewrite app_length, Nat2Z.inj_add. fold (message c seq). rewrite <- IH by (intros y Hy; apply I; right; exact Hy). rewrite Z.add_comm, <- (total_add syms _ c x N) by (apply I; left; reflexivity).
    apply total_ext. intros s _. cbn [count_occ]. destruct (Z.eq_dec x s) as [->|E]; [rewrite Z.eqb_refl|replace (x =? s) with false by lia]; lia. Qed.

Lemma freq_info_nodup program x freq w : freq_info program x = Ok (freq, w) -> NoDup (dkeys freq).
Proof. unfold freq_info. intros E. assert (G : forall l st st', foldM (fun st p => let* fields := x p in Ok (fold_left (freq_item p) (counter fields) st)) l st = Ok st' -> NoDup (dkeys (fst st)) -> NoDup (dkeys (fst st'))).
  { induction l as [|p l IH]; intros st st' X N; cbn [foldM] in X; [congruence|]. destruct (x p) as [fs|]; [|discriminate]. cbn [bind] in X. apply IH in X; [exact X|]. clear - N. revert st N. induction (counter fs) as [|[k r] c IH]; intros st N; cbn [fold_left]; [exact N|]. apply IH. destruct st as [f w]. cbn [freq_item fst] in *. apply dset_nodup. destruct (dget f k); [exact N|apply dset_nodup, N]. }
  apply (G _ _ _ E). constructor. Qed.
Lemma counted program x fields : (forall p, In p program -> x p = Ok (fields p)) -> exists freq w, freq_info program x = Ok (freq, w) /\
  match flat_map fields program with [] => freq = [] | _ => exists n, huffman_size freq None = Ok n /\ fewest_bits (flat_map fields program) n end.
Proof. intros H. destruct (C59_exact program x fields H) as (freq & w & E & Tf & _). exists freq, w. split; [exact E|]. pose proof (freq_info_nodup _ _ _ _ E) as N. set (seq := flat_map fields program) in *.
  assert (K : forall k, In k (dkeys freq) <-> In k seq). { intros k. rewrite dget_some_in, Tf. unfold occurrences. cbn zeta. rewrite (count_occ_In Z.eq_dec). destruct (Z.of_nat (count_occ Z.eq_dec seq k) =? 0) eqn:Z0; split; intros X; [destruct X; discriminate|lia|lia|eauto]. }
  assert (W : forall k, weight freq k = Z.of_nat (count_occ Z.eq_dec seq k)). { intros k. unfold weight. rewrite Tf. unfold occurrences. cbn zeta. destruct (Z.of_nat (count_occ Z.eq_dec seq k) =? 0) eqn:Z0; lia. }
  assert (T : forall c, total_length (dkeys freq) (weight freq) c = Z.of_nat (length (message c seq))). { intros c. rewrite <- (total_message (dkeys freq)); [|exact N|intros y Hy; apply K, Hy]. apply total_ext. intros s _. apply W. }
  assert (Pf : forall c, prefix_free (dkeys freq) c <-> prefix_free seq c). { intros c. unfold prefix_free. split; intros P s t Is It; apply P; apply K; assumption. }
  destruct seq as [|s0 rest] eqn:Es.
  - destruct freq as [|[k v] freq]; [reflexivity|]. exfalso. apply (K k). left. reflexivity.
  - assert (Ne : freq <> []). { intros ->. apply (K s0). left. reflexivity. }
    destruct (C58_optimal freq N Ne) as (ps & n & En & Hs & Hn & Mn). { intros s v G. rewrite Tf in G. unfold occurrences in G. cbn zeta in G. destruct (_ =? 0) in G; [discriminate|]. injection G as <-. lia. }
    exists n. split; [exact Hs|]. split.
    + exists (code_in ps). split; [|rewrite <- T; congruence]. apply Pf. pose proof (C57_prefix_code freq N) as C. rewrite En in C. cbn zeta in C. apply C.
    + intros c Hc. rewrite <- T. apply Mn, Pf, Hc. Qed.
Lemma single {A} (f : A -> Z) l : flat_map (fun p => [f p]) l = map f l.
Proof. induction l as [|x l IH]; [reflexivity|]. cbn [flat_map app map]. rewrite IH. reflexivity. Qed.

(** The first three numbers are the best sizes; then the script either raises or prints the
    first number again. *)
Theorem C153_sizes_partial : forall fuel program registers fields op cond, (1 <= fuel)%nat -> (forall p, In p program -> registers p = Ok (fields p)) -> (forall p r, In p program -> In r (fields p) -> 0 <= r) ->
  let used := flat_map fields program in
  let different := Z.of_nat (length (nodup Z.eq_dec used)) in
  (used = [] -> improver fuel program registers op cond = ([], Some IndexError)) /\
  (used <> [] -> exists r o c, fewest_bits used r /\ fewest_bits (map op program) o /\ fewest_bits (map cond program) c /\
    ((exists x, In x used /\ x < different - 1) /\ improver fuel program registers op cond = ([r; o; c], Some AttributeError) \/
     (forall x, In x used -> different - 1 <= x) /\ improver fuel program registers op cond = ([r; o; c; r], None))).
Proof. intros fuel program registers fields op cond Hf H Nn used different.
  destruct (counted program registers fields H) as (fr & wr & Er & Sr). destruct (counted program (fun p => Ok [op p]) (fun p => [op p])) as (fo & wo & Eo & So); [reflexivity|]. destruct (counted program (fun p => Ok [cond p]) (fun p => [cond p])) as (fc & wc & Ec & Sc); [reflexivity|].
  rewrite single in So, Sc. fold used in Sr. unfold improver. rewrite Er, Eo, Ec. cbn [bind]. split.
  - intros U. rewrite U in Sr. subst fr. reflexivity.
  - intros U. assert (Pn : program <> []) by (intros ->; apply U; reflexivity).
    assert (exists r, huffman_size fr None = Ok r /\ fewest_bits used r) as (r & Hr & Br) by (destruct used; [congruence|exact Sr]).
    assert (exists o, huffman_size fo None = Ok o /\ fewest_bits (map op program) o) as (o & Ho & Bo) by (destruct program; [congruence|exact So]).
    assert (exists c, huffman_size fc None = Ok c /\ fewest_bits (map cond program) c) as (c & Hc & Bc) by (destruct program; [congruence|exact Sc]).
    exists r, o, c. rewrite Hr, Ho, Hc. repeat (split; [assumption|]).
    destruct (C77_changes_registers_partial fuel program registers fields Hf H Nn) as (Raise & Same). fold used in Raise, Same. fold different in Raise, Same.
    destruct (existsb (fun x => x <? different - 1) used) eqn:X.
    + left. apply existsb_exists in X. destruct X as (x & Ix & Lx). assert (Y : exists x, In x used /\ x < different - 1) by (exists x; split; [exact Ix|lia]). split; [exact Y|]. rewrite (proj2 Raise Y). reflexivity.
    + right. assert (Y : forall x, In x used -> different - 1 <= x). { intros x Ix. destruct (Z.ltb_spec x (different - 1)) as [L|L]; [|exact L]. exfalso. assert (Z1 : existsb (fun x => x <? different - 1) used = true) by (apply existsb_exists; exists x; split; [exact Ix|lia]). congruence. }
      split; [exact Y|]. destruct (Same Y) as (f & w & Ef & Ech). rewrite Ech. assert (f = fr) as -> by congruence. cbn [bind]. rewrite Hr. reflexivity. Qed.
Print Assumptions C153_sizes_partial.
(** A program for which the script does not reach its last line. *)
Theorem C153_sizes_refuted : exists program registers, (forall p, In p program -> exists l, registers p = Ok l /\ l <> []) /\ forall fuel op cond, (1 <= fuel)%nat -> snd (improver fuel program registers op cond) = Some AttributeError.
Proof. exists [0; 1], (fun p => Ok (if p =? 0 then [3; 0] else [1])). split; [intros p _; destruct (p =? 0); eexists; split; try reflexivity; discriminate|].
  intros fuel op cond Hf. destruct (C153_sizes_partial fuel [0; 1] (fun p => Ok (if p =? 0 then [3; 0] else [1])) (fun p => if p =? 0 then [3; 0] else [1]) op cond Hf) as (_ & G).
  - reflexivity.
  - intros p r _ I. destruct (p =? 0); cbn [In] in I; lia.
  - destruct G as (r & o & c & _ & _ & _ & [(_ & ->)|(X & _)]); [discriminate|reflexivity|]. exfalso. specialize (X 0 ltac:(right; left; reflexivity)). vm_compute in X. apply X. reflexivity. Qed.
Print Assumptions C153_sizes_refuted.
Example C153_example : improver 5 [0; 1; 2] (fun p => Ok (if p =? 0 then [3; 0] else [1])) (fun p => p) (fun _ => 14) = ([6; 5; 0], Some AttributeError) /\
  improver 5 [0; 1; 2] (fun p => Ok (if p =? 0 then [13; 2] else [13])) (fun p => p) (fun _ => 14) = ([4; 5; 0; 4], None).
Proof. split; vm_compute; reflexivity. Qed.

(** ** C154 *)
(** The texts ".disam" and "True" by their character codes. *)
Definition codes (s : String.string) : text := map (fun c => Z.of_nat (Ascii.nat_of_ascii c)) (String.list_ascii_of_string s).
Definition ending : text := codes ".disam"%string.
Definition yes : text := codes "True"%string.
Lemma ending_disam : ending = s_disam.
Proof. reflexivity. Qed.
Lemma yes_true : yes = s_true.
Proof. reflexivity. Qed.
(** A line of the results file: a name, a colon, a verdict.  It speaks about the file named
    after the part of the name before the first dot. *)
Definition line_says (line f : text) (equal : bool) : Prop := exists key value stem rest,
  line = key ++ 58 :: value /\ ~ In 58 key /\ ~ In 58 value /\
  strip key = stem ++ rest /\ ~ In 46 stem /\ (rest = [] \/ exists r, rest = 46 :: r) /\
  f = stem ++ ending /\ (equal = true <-> strip value = yes).
(** The last line about a file counts. *)
Definition results_say (results : list text) (f : text) (equal : bool) : Prop := exists before line after,
  results = before ++ line :: after /\ line_says line f equal /\ forall l b, In l after -> ~ line_says l f b.
(** The lines of a file that are not the same as the line of that number of the reference. *)
Definition different (reference lines : list text) : list nat :=
  filter (fun k => if list_eq_dec Z.eq_dec (nth k reference []) (nth k lines []) then false else true) (seq 0 (length lines)).
Definition differences (reference : list text) (file : text * list text) : list report :=
  map (fun k => (fst file, k, strip (nth k reference []), strip (nth k (snd file) []))) (tl (different reference (snd file))).

Lemma same_text_spec a b : same_text a b = true <-> a = b.
Proof. revert b. induction a as [|x a IH]; intros [|y b]; cbn [same_text]; try (split; congruence). rewrite andb_true_iff, IH, Z.eqb_eq. split; [intros [-> ->]; reflexivity|intros [= -> ->]; auto]. Qed.
Lemma same_text_dec a b : same_text a b = if list_eq_dec Z.eq_dec a b then true else false.
Proof. destruct (list_eq_dec Z.eq_dec a b) as [e|n]; [apply same_text_spec, e|]. destruct (same_text a b) eqn:E; [|reflexivity]. apply same_text_spec in E. contradiction. Qed.
Lemma first_stem key stem rest : strip key = stem ++ rest -> ~ In 46 stem -> rest = [] \/ (exists r, rest = 46 :: r) -> exists ps, split_all 46 (strip key) = stem :: ps.
Proof. intros -> N [->|(r & ->)]; [rewrite app_nil_r, split_all_none by exact N; eauto|rewrite split_all_at by exact N; eauto]. Qed.
Lemma equals_line_says d line f b : line_says line f b -> equals_line d line = Ok ((f, b) :: d).
Proof. intros (key & value & stem & rest & -> & Nk & Nv & Es & Ns & R & -> & V). unfold equals_line, c_colon, c_dot. rewrite split_all_at by exact Nk. rewrite split_all_none by exact Nv. destruct (first_stem _ _ _ Es Ns R) as (ps & ->). assert (same_text (strip value) s_true = b) as ->; [|reflexivity]. apply eq_true_iff_eq. rewrite same_text_spec. symmetry. exact V. Qed.
Lemma line_says_fun line f b f' b' : line_says line f b -> line_says line f' b' -> f = f' /\ b = b'.
Proof. intros A B. apply (equals_line_says []) in A. apply (equals_line_says []) in B. rewrite A in B. injection B as -> ->. auto. Qed.
Lemma text_split c (l : text) : In c l -> exists a r, l = a ++ c :: r /\ ~ In c a.
Proof. induction l as [|x l IH]; intros I; [destruct I|]. destruct (Z.eq_dec x c) as [->|n]; [exists [], l; split; [reflexivity|intros []]|]. destruct I as [I|I]; [congruence|]. destruct (IH I) as (a & r & -> & N). exists (x :: a), r. split; [reflexivity|]. intros [E|E]; [congruence|contradiction]. Qed.
Lemma equals_line_only d line : (forall f b, ~ line_says line f b) -> equals_line d line = Err ValueError.
Proof. intros H. unfold equals_line, c_colon, c_dot. destruct (in_dec Z.eq_dec 58 line) as [I|I]; [|rewrite split_all_none by exact I; reflexivity].
  destruct (text_split 58 line I) as (key & r & -> & Nk). rewrite split_all_at by exact Nk. destruct (in_dec Z.eq_dec 58 r) as [I2|I2].
  - destruct (text_split 58 r I2) as (v & r2 & -> & Nv). rewrite split_all_at by exact Nv. pose proof (split_all_first 58 [] r2 (fun x => x)) as (q & ps & E). cbn [app] in E. rewrite E. reflexivity.
  - exfalso. assert (S : exists stem rest, strip key = stem ++ rest /\ ~ In 46 stem /\ (rest = [] \/ exists r, rest = 46 :: r)).
    { destruct (in_dec Z.eq_dec 46 (strip key)) as [J|J]; [destruct (text_split 46 _ J) as (a & r1 & E & N); exists a, (46 :: r1); eauto|exists (strip key), []; rewrite app_nil_r; auto]. }
    destruct S as (stem & rest & Es & Ns & R). apply (H (stem ++ s_disam) (same_text (strip r) s_true)). exists key, r, stem, rest. repeat (split; [assumption || reflexivity|]). apply same_text_spec. Qed.
Lemma tget_says results : Forall (fun l => exists f b, line_says l f b) results -> exists equals, foldM equals_line results [] = Ok equals /\ forall f b, tget equals f = Some b <-> results_say results f b.
Proof. induction results as [|line results IH] using rev_ind; intros F.
  - exists []. split; [reflexivity|]. intros f b. split; [discriminate|]. intros (x & y & z & E & _). destruct x; discriminate.
  - apply Forall_app in F. destruct F as [F1 F2]. destruct (IH F1) as (eq & E & T). inversion F2 as [|? ? (f0 & b0 & S0) _]; subst.
    exists ((f0, b0) :: eq). split. { rewrite foldM_app, E. cbn [bind foldM]. rewrite (equals_line_says _ _ _ _ S0). reflexivity. }
    intros f b. cbn [tget]. destruct (same_text f0 f) eqn:X.
    + apply same_text_spec in X. subst f0. split.
      * intros [= <-]. exists results, line, []. split; [reflexivity|]. split; [exact S0|]. intros l b [].
      * intros (x & y & z & Ez & Sy & N). f_equal. destruct z as [|w z _] using rev_ind.
        -- apply app_inj_tail in Ez. destruct Ez as [_ ->]. apply (line_says_fun _ _ _ _ _ S0 Sy).
        -- exfalso. change (x ++ y :: z ++ [w]) with (x ++ (y :: z) ++ [w]) in Ez. rewrite app_assoc in Ez. apply app_inj_tail in Ez. destruct Ez as [_ ->]. apply (N w b0); [apply in_or_app; right; left; reflexivity|exact S0].
    + assert (Nf : f0 <> f) by (intros ->; assert (same_text f f = true) by (apply same_text_spec; reflexivity); congruence). rewrite T. split; intros (x & y & z & Ez & Sy & N).
      * exists x, y, (z ++ [line]). rewrite Ez. rewrite <- app_assoc. split; [reflexivity|]. split; [exact Sy|]. intros l b1 I. apply in_app_iff in I. destruct I as [I|[<-|[]]]; [apply N, I|]. intros S. apply Nf. apply (line_says_fun _ _ _ _ _ S0 S).
      * destruct z as [|w z _] using rev_ind.
        -- apply app_inj_tail in Ez. destruct Ez as [_ ->]. exfalso. apply Nf. apply (line_says_fun _ _ _ _ _ S0 Sy).
        -- change (x ++ y :: z ++ [w]) with (x ++ (y :: z) ++ [w]) in Ez. rewrite app_assoc in Ez. apply app_inj_tail in Ez. destruct Ez as [-> ->]. exists x, y, z. split; [reflexivity|]. split; [exact Sy|]. intros l b1 I. apply N. apply in_or_app. left. exact I. Qed.

(** What the loop over the lines prints. *)
Lemma compare_stuck original f ls s : snd (snd s) <> None -> fold_left (compare_line original f) ls s = s.
Proof. revert s. induction ls as [|l ls IH]; intros [[k d] [o e]] H; [reflexivity|]. cbn [fold_left]. cbn [snd] in H. destruct e as [e|]; [|congruence]. cbn [compare_line snd]. apply IH. discriminate. Qed.
Definition shown (original : list text) (f : text) (pre ls : list text) (diff : nat) : list report :=
  map (fun k => (f, k, strip (nth k original []), strip (nth k (pre ++ ls) [])))
    (skipn (1 - diff) (filter (fun k => if list_eq_dec Z.eq_dec (nth k original []) (nth k (pre ++ ls) []) then false else true) (seq (length pre) (length ls)))).
Lemma compare_lines original f ls : forall pre diff out, (length pre + length ls <= length original)%nat -> 
  snd (fold_left (compare_line original f) ls ((length pre, diff), (out, None))) = (out ++ shown original f pre ls diff, None).
Proof. induction ls as [|l ls IH]; intros pre diff out H.
  - cbn [fold_left snd]. unfold shown. cbn [length seq filter]. rewrite skipn_nil. cbn [map]. rewrite app_nil_r. reflexivity.
  - cbn [fold_left compare_line snd fst]. unfold nth_r. cbn [length] in H. destruct (nth_error original (length pre)) as [o|] eqn:E; [|apply nth_error_None in E; lia].
    pose proof (nth_error_nth _ _ [] E) as En. assert (En' : @nth (list Z) (length pre) original (@nil Z) = o) by exact En. assert (En2 : @nth text (length pre) original (@nil Z) = o) by exact En. assert (Hn : nth (length pre) (pre ++ l :: ls) [] = l) by (rewrite app_nth2, Nat.sub_diag by lia; reflexivity).
    assert (L : S (length pre) = length (pre ++ [l])) by (rewrite app_length; cbn [length]; lia). assert (A : pre ++ l :: ls = (pre ++ [l]) ++ ls) by (rewrite <- app_assoc; reflexivity).
    rewrite same_text_dec. unfold shown. cbn [length seq filter]. rewrite Hn, ?En', ?En2. destruct (list_eq_dec Z.eq_dec o l) as [e|n].
    + rewrite L, IH by (rewrite <- L; lia). unfold shown. rewrite A. reflexivity.
    + unfold then_print. cbn [snd fst]. rewrite L, IH by (rewrite <- L; lia). destruct diff as [|diff].
      * cbn [Nat.ltb Nat.leb]. rewrite app_nil_r. unfold shown. cbn [Nat.sub skipn]. rewrite A. reflexivity.
      * cbn [Nat.ltb Nat.leb]. cbn [Nat.sub]. rewrite skipn_O. cbn [map]. rewrite Hn, ?En', ?En2. rewrite <- app_assoc. cbn [app]. unfold shown. cbn [Nat.sub]. rewrite skipn_O, A. reflexivity. Qed.
Lemma compare_long original f ls : forall (pre : list text) diff out, (length pre <= length original < length pre + length ls)%nat ->
  snd (snd (fold_left (compare_line original f) ls ((length pre, diff), (out, None)))) = Some IndexError.
Proof. induction ls as [|l ls IH]; intros pre diff out H; [cbn [length] in H; lia|]. cbn [fold_left compare_line snd fst]. unfold nth_r. cbn [length] in H. destruct (nth_error original (length pre)) as [o|] eqn:E.
  - assert (L : S (length pre) = length (pre ++ [l])) by (rewrite app_length; cbn [length]; lia). assert (length pre < length original)%nat by (apply nth_error_Some; congruence). destruct (same_text o l); [|unfold then_print; cbn [snd fst]]; rewrite L; apply IH; rewrite <- L; lia.
  - rewrite compare_stuck by discriminate. reflexivity. Qed.
Lemma compare_one equals original out file : compare_file equals original (out, None) file =
  match tget equals (fst file) with
  | None => (out, Some KeyError)
  | Some false => (out, None)
  | Some true => if (length (snd file) <=? length original)%nat then (out ++ differences original file, None) else compare_file equals original (out, None) file
  end.
Proof. unfold compare_file. cbn [snd fst]. destruct (tget equals (fst file)) as [[|]|]; try reflexivity. destruct (Nat.leb_spec (length (snd file)) (length original)) as [L|L]; [|reflexivity].
  pose proof (compare_lines original (fst file) (snd file) [] 0%nat out) as G. cbn [length] in G. rewrite G by (cbn; lia). reflexivity. Qed.
Lemma compare_file_stuck equals original files out e : fold_left (compare_file equals original) files (out, Some e) = (out, Some e).
Proof. induction files as [|f files IH]; [reflexivity|]. cbn [fold_left compare_file snd]. exact IH. Qed.

(** Every line is understood, every file has a verdict, and no file to compare is longer than
    the first: the script reports, for the files marked equal, all differences but the first. *)
Theorem C154_reports_partial : forall results files first rest verdict, files = first :: rest ->
  Forall (fun l => exists f b, line_says l f b) results ->
  (forall file, In file files -> results_say results (fst file) (verdict (fst file))) ->
  (forall file, In file files -> verdict (fst file) = true -> (length (snd file) <= length (snd first))%nat) ->
  comparefiles results files = (flat_map (fun file => if verdict (fst file) then differences (snd first) file else []) files, None).
Proof. intros results files first rest verdict Ef F V L. destruct (tget_says results F) as (equals & E & T). unfold comparefiles. rewrite E, Ef. rewrite <- Ef. clear Ef rest.
  enough (G : forall fs out, incl fs files -> fold_left (compare_file equals (snd first)) fs (out, None) = (out ++ flat_map (fun file => if verdict (fst file) then differences (snd first) file else []) fs, None)) by (apply (G files [] (incl_refl _))).
  induction fs as [|file fs IH]; intros out I; cbn [fold_left flat_map]; [rewrite app_nil_r; reflexivity|]. assert (In file files) as If by (apply I; left; reflexivity). rewrite compare_one, (proj2 (T _ _) (V file If)).
  assert (I' : incl fs files) by (intros x Hx; apply I; right; exact Hx). destruct (verdict (fst file)) eqn:B.
  - replace (length (snd file) <=? length (snd first))%nat with true by (symmetry; apply Nat.leb_le, L; assumption). rewrite IH by exact I'. rewrite app_assoc. reflexivity.
  - rewrite IH by exact I'. reflexivity. Qed.
Print Assumptions C154_reports_partial.
(** When the script ends without an exception. *)
Theorem C154_ends : forall results files, snd (comparefiles results files) = None <->
  Forall (fun l => exists f b, line_says l f b) results /\
  exists first rest, files = first :: rest /\ forall file, In file files -> exists b, results_say results (fst file) b /\ (b = true -> (length (snd file) <= length (snd first))%nat).
Proof. intros results files. split.
  - intros H. assert (F : Forall (fun l => exists f b, line_says l f b) results).
    { unfold comparefiles in H. destruct (foldM equals_line results []) as [eq|] eqn:E; [clear H|discriminate]. revert E. generalize (@nil (text * bool)). induction results as [|l results IH]; intros d E; constructor.
      - cbn [foldM] in E. destruct (equals_line d l) as [d'|] eqn:El; [|discriminate]. unfold equals_line, c_colon, c_dot in El. destruct (in_dec Z.eq_dec 58 l) as [I|I]; [|rewrite split_all_none in El by exact I; discriminate].
        destruct (text_split 58 l I) as (key & r & -> & Nk). rewrite split_all_at in El by exact Nk. destruct (in_dec Z.eq_dec 58 r) as [I2|I2].
        + destruct (text_split 58 r I2) as (v & r2 & -> & Nv). rewrite split_all_at in El by exact Nv. pose proof (split_all_first 58 [] r2 (fun x => x)) as (q & ps & E2). cbn [app] in E2. rewrite E2 in El. discriminate.
        + assert (S : exists stem rest, strip key = stem ++ rest /\ ~ In 46 stem /\ (rest = [] \/ exists r, rest = 46 :: r)).
          { destruct (in_dec Z.eq_dec 46 (strip key)) as [J|J]; [destruct (text_split 46 _ J) as (a & r1 & Ea & N); exists a, (46 :: r1); eauto|exists (strip key), []; rewrite app_nil_r; auto]. }
          destruct S as (stem & rest & Es & Ns & R). exists (stem ++ s_disam), (same_text (strip r) s_true). exists key, r, stem, rest. repeat (split; [assumption || reflexivity|]). apply same_text_spec.
      - cbn [foldM] in E. destruct (equals_line d l) as [d'|]; [|discriminate]. exact (IH d' E). }
    split; [exact F|]. destruct (tget_says results F) as (equals & E & T). unfold comparefiles in H. rewrite E in H. destruct files as [|first rest]; [discriminate|]. exists first, rest. split; [reflexivity|]. assert (X : forall fs out, snd (fold_left (compare_file equals (snd first)) fs (out, None)) = None -> forall file, In file fs -> exists b, results_say results (fst file) b /\ (b = true -> (length (snd file) <= length (snd first))%nat)); [|exact (X _ _ H)]. clear H E.
    induction fs as [|file fs IH]; intros out H f If; [destruct If|]. cbn [fold_left] in H. destruct (tget equals (fst file)) as [b|] eqn:G.
    + assert (X : exists out', compare_file equals (snd first) (out, None) file = (out', None) /\ (b = true -> (length (snd file) <= length (snd first))%nat)).
      { destruct b.
        - destruct (Nat.leb_spec (length (snd file)) (length (snd first))) as [L|L].
          + rewrite compare_one, G. replace (length (snd file) <=? length (snd first))%nat with true by (symmetry; apply Nat.leb_le, L). eauto.
          + exfalso. pose proof (compare_long (snd first) (fst file) (snd file) [] 0%nat out) as C. cbn [length] in C. specialize (C ltac:(lia)). assert (Cf : compare_file equals (snd first) (out, None) file = snd (fold_left (compare_line (snd first) (fst file)) (snd file) (0%nat, 0%nat, (out, None)))) by (unfold compare_file; cbn [snd fst]; rewrite G; reflexivity).
            rewrite <- Cf in C. destruct (compare_file equals (snd first) (out, None) file) as [o e]. cbn [snd] in C. subst e. rewrite compare_file_stuck in H. discriminate.
        - exists out. rewrite compare_one, G. split; [reflexivity|discriminate]. }
      destruct X as (out' & Ec & Lb). rewrite Ec in H. destruct If as [<-|If]; [exists b; split; [apply T, G|exact Lb]|]. apply (IH out' H f If).
    + rewrite compare_one, G, compare_file_stuck in H. discriminate.
  - intros (F & first & rest & Ef & H). destruct (tget_says results F) as (equals & E & T).
    rewrite (C154_reports_partial results files first rest (fun f => match tget equals f with Some b => b | None => false end) Ef F); [reflexivity| |].
    + intros file I. destruct (H file I) as (b & S & _). apply T in S. rewrite S. apply T, S.
    + intros file I. destruct (H file I) as (b & S & L). apply T in S. rewrite S. exact L. Qed.
Print Assumptions C154_ends.
(** A file longer than the first one ends the script. *)
Theorem C154_reports_refuted : exists results files, Forall (fun l => exists f b, line_says l f b) results /\ (forall file, In file files -> results_say results (fst file) true) /\ files <> [] /\ snd (comparefiles results files) = Some IndexError.
Proof. exists [[97; 58; 84; 114; 117; 101]; [98; 58; 84; 114; 117; 101]], [([97] ++ s_disam, [[49]]); ([98] ++ s_disam, [[49]; [50]])].
  assert (S : forall x, x = 97 \/ x = 98 -> line_says [x; 58; 84; 114; 117; 101] ([x] ++ s_disam) true).
  { intros x Hx. exists [x], [84; 114; 117; 101], [x], []. split; [reflexivity|]. split; [intros [E|[]]; lia|]. split; [intros I; repeat (destruct I as [I|I]; [discriminate|]); destruct I|]. split; [destruct Hx as [->| ->]; reflexivity|]. split; [intros [E|[]]; lia|]. split; [left; reflexivity|]. split; [reflexivity|]. split; [intros _; reflexivity|reflexivity]. }
  split; [constructor; [|constructor; [|constructor]]; eexists _, _; apply S; auto|]. split; [|split; [discriminate|vm_compute; reflexivity]].
  intros file [<-|[<-|[]]].
  - exists [], [97; 58; 84; 114; 117; 101], [[98; 58; 84; 114; 117; 101]]. split; [reflexivity|]. split; [apply S; auto|]. intros l b [<-|[]] X. destruct (line_says_fun _ _ _ _ _ (S 98 (or_intror eq_refl)) X) as [Y _]. discriminate.
  - exists [[97; 58; 84; 114; 117; 101]], [98; 58; 84; 114; 117; 101], []. split; [reflexivity|]. split; [apply S; auto|]. intros l b []. Qed.
Print Assumptions C154_reports_refuted.
Example C154_example : let a := [97] ++ s_disam in let b := [98] ++ s_disam in let c := [99] ++ s_disam in
  comparefiles [[97; 58; 84; 114; 117; 101]; [98; 46; 111; 58; 32; 84; 114; 117; 101; 10]; [99; 58; 70; 97; 108; 115; 101]] [(a, [[48]; [49; 10]; [50]; [51]]); (b, [[57]; [49; 10]; [55]; [56; 32]]); (c, [[57]; [57]; [57]])] =
  ([(b, 2%nat, [50], [55]); (b, 3%nat, [51], [56])], None).
Proof. vm_compute. reflexivity. Qed.
(** A line that is not understood ends the script before it prints anything. *)
Theorem C154_malformed : forall before line after files, Forall (fun l => exists f b, line_says l f b) before -> (forall f b, ~ line_says line f b) ->
  comparefiles (before ++ line :: after) files = ([], Some ValueError).
Proof. intros before line after files F N. unfold comparefiles. destruct (tget_says before F) as (equals & E & _). rewrite foldM_app, E. cbn [bind foldM]. rewrite equals_line_only by exact N. reflexivity. Qed.
Print Assumptions C154_malformed.
Example C154_malformed_example : comparefiles [[97; 58; 84; 114; 117; 101]; [97; 98; 10]] [([97] ++ s_disam, [])] = ([], Some ValueError).
Proof. reflexivity. Qed.
