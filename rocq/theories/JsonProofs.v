(** Lemmas about saving and loading corrupted programs. *)
From Verif Require Import ListLemmas PacketModel RandomModel JsonModel.
From Coq Require Import ZifyBool ZifyNat DecimalString DecimalZ.

Lemma int_of_str_of_int z : int_of_str (str_of_int z) = Ok z.
Proof. unfold int_of_str, str_of_int, chars. rewrite string_of_list_ascii_of_string, NilZero.isi, DecimalZ.of_to; [reflexivity| |].
  all: destruct z; cbn; try discriminate; intros H; assert (P : Pos.to_uint p = Decimal.Nil) by congruence;
    apply (DecimalPos.Unsigned.to_uint_nonnil p); exact P. Qed.

Lemma json_number_str z : json_number (str_of_int z) = Ok z.
Proof. unfold json_number. rewrite int_of_str_of_int. cbn [bind]. unfold text_eqb. rewrite String.eqb_refl. reflexivity. Qed.

Lemma str_inj a b : str_of_int a = str_of_int b -> a = b.
Proof. intros H. assert (int_of_str (str_of_int a) = int_of_str (str_of_int b)) by congruence. rewrite !int_of_str_of_int in H0. congruence. Qed.

Lemma digits_uint d : forallb is_digit (chars (NilEmpty.string_of_uint d)) = true.
Proof. induction d; cbn; auto. Qed.

Lemma nilzero_cons d : exists c s, chars (NilZero.string_of_uint d) = c :: s /\ is_digit c = true /\ forallb is_digit s = true.
Proof. destruct d; cbn [NilZero.string_of_uint NilEmpty.string_of_uint chars list_ascii_of_string]; eexists; eexists; (split; [reflexivity|]);
  split; try reflexivity; apply digits_uint. Qed.

Lemma str_shape z : exists c s, str_of_int z = c :: s /\ (Ascii.eqb c "-" || is_digit c) = true /\ forallb is_digit s = true.
Proof. unfold str_of_int. destruct (Z.to_int z) as [d|d]; cbn [NilZero.string_of_int].
  - destruct (nilzero_cons d) as (c & s & -> & A & B). exists c, s. rewrite A, orb_true_r. auto.
  - destruct (nilzero_cons d) as (c & s & E & A & B). exists "-"%char, (c :: s). unfold chars in *. cbn [list_ascii_of_string]. rewrite E.
    split; [reflexivity|]. split; [reflexivity|]. cbn [forallb]. rewrite A, B. reflexivity. Qed.

(** Lexing. *)
Lemma lex_digits s : forall ts acc, forallb is_digit s = true -> foldM lex_step s (ts, InNum acc) = Ok (ts, InNum (acc ++ s)).
Proof. induction s as [|c s IH]; intros ts acc H; cbn [foldM]; [rewrite app_nil_r; reflexivity|].
  cbn [forallb] in H. apply andb_prop in H. destruct H as [Hc Hs]. cbn [lex_step]. rewrite Hc. cbn [bind]. rewrite IH by exact Hs. rewrite <- app_assoc. reflexivity. Qed.

Lemma digit_cases c : is_digit c = true -> In c (chars "0123456789").
Proof. intros H. destruct c as [b0 b1 b2 b3 b4 b5 b6 b7]. destruct b0, b1, b2, b3, b4, b5, b6, b7; try discriminate H; cbn; tauto. Qed.

Lemma start_plain c : (Ascii.eqb c "-" || is_digit c) = true -> lex_plain c = Ok ([], InNum [c]).
Proof. intros H. apply orb_prop in H. destruct H as [H|H]; [apply Ascii.eqb_eq in H; subst; reflexivity|].
  apply digit_cases in H. cbn in H. repeat (destruct H as [<-|H]; [reflexivity|]). contradiction. Qed.

Lemma lex_num z ts : foldM lex_step (str_of_int z) (ts, Plain) = Ok (ts, InNum (str_of_int z)).
Proof. destruct (str_shape z) as (c & s & -> & A & B). cbn [foldM lex_step]. rewrite (start_plain c A). cbn [bind]. rewrite app_nil_r.
  rewrite lex_digits by exact B. reflexivity. Qed.

Lemma lex_string_chars s : forall ts acc, forallb (fun c => Ascii.eqb c "-" || is_digit c) s = true ->
  foldM lex_step s (ts, InStr acc) = Ok (ts, InStr (acc ++ s)).
Proof. induction s as [|c s IH]; intros ts acc H; cbn [foldM]; [rewrite app_nil_r; reflexivity|].
  cbn [forallb] in H. apply andb_prop in H. destruct H as [Hc Hs].
  assert (E : lex_step (ts, InStr acc) c = Ok (ts, InStr (acc ++ [c]))).
  { apply orb_prop in Hc. destruct Hc as [Hc|Hc]; [apply Ascii.eqb_eq in Hc; subst; reflexivity|].
    apply digit_cases in Hc. cbn in Hc. repeat (destruct Hc as [<-|Hc]; [reflexivity|]). contradiction. }
  rewrite E. cbn [bind]. rewrite IH by exact Hs. rewrite <- app_assoc. reflexivity. Qed.

Lemma str_chars z : forallb (fun c => Ascii.eqb c "-" || is_digit c) (str_of_int z) = true.
Proof. destruct (str_shape z) as (c & s & -> & A & B). cbn [forallb]. rewrite A. cbn [andb].
  apply forallb_forall. intros x Hx. rewrite forallb_forall in B. rewrite (B x Hx), orb_true_r. reflexivity. Qed.

Definition list_tokens (l : list Z) : list token :=
  match l with
  | [] => [LBrack; RBrack]
  | x :: l' => [LBrack; Num x] ++ flat_map (fun y => [Comma; Num y]) l' ++ [RBrack]
  end.

Lemma plain_step c rest ts new m : lex_plain c = Ok (new, m) -> foldM lex_step (c :: rest) (ts, Plain) = foldM lex_step rest (ts ++ new, m).
Proof. intros H. cbn [foldM lex_step]. rewrite H. reflexivity. Qed.
Lemma space_step c rest ts : lex_plain c = Ok ([], Plain) -> foldM lex_step (c :: rest) (ts, Plain) = foldM lex_step rest (ts, Plain).
Proof. intros H. rewrite (plain_step _ _ _ _ _ H), app_nil_r. reflexivity. Qed.
Lemma num_step c rest ts z new m : is_digit c = false -> lex_plain c = Ok (new, m) ->
  foldM lex_step (c :: rest) (ts, InNum (str_of_int z)) = foldM lex_step rest (ts ++ [Num z] ++ new, m).
Proof. intros D H. cbn [foldM lex_step]. rewrite D, json_number_str. cbn [bind]. rewrite H. reflexivity. Qed.
Ltac spaces := repeat (rewrite space_step by reflexivity).
Ltac flat := cbn [chars list_ascii_of_string app]; rewrite <- ?app_assoc; cbn [chars list_ascii_of_string app].

Lemma lex_elems l : forall x ts,
  foldM lex_step (flat_map (fun y => chars "," ++ [newline] ++ chars "    " ++ str_of_int y) l ++ [newline] ++ chars "  ]") (ts, InNum (str_of_int x))
  = Ok (ts ++ [Num x] ++ flat_map (fun y => [Comma; Num y]) l ++ [RBrack], Plain).
Proof. induction l as [|y l IH]; intros x ts; cbn [flat_map].
  - flat. rewrite (num_step _ _ _ _ [] Plain) by reflexivity. spaces. rewrite (plain_step _ _ _ [RBrack] Plain) by reflexivity. cbn [foldM]. rewrite <- app_assoc. reflexivity.
  - flat. rewrite (num_step _ _ _ _ [Comma] Plain) by reflexivity. spaces. rewrite foldM_app, lex_num. cbn [bind].
    specialize (IH y (ts ++ [Num x; Comma])). flat. cbn [chars list_ascii_of_string app] in IH. rewrite IH. rewrite <- app_assoc. reflexivity. Qed.

Lemma lex_list l ts : foldM lex_step (json_list l) (ts, Plain) = Ok (ts ++ list_tokens l, Plain).
Proof. destruct l as [|x l].
  - cbn. rewrite <- app_assoc. reflexivity.
  - unfold json_list. flat. rewrite (plain_step _ _ _ [LBrack] Plain) by reflexivity. spaces. rewrite foldM_app, lex_num. cbn [bind].
    pose proof (lex_elems l x (ts ++ [LBrack])) as IH. cbn [chars list_ascii_of_string app] in IH. rewrite IH. cbn [list_tokens]. rewrite <- app_assoc. reflexivity. Qed.

Definition member_tokens (kv : Z * list inst) : list token :=
  [Str (str_of_int (fst kv)); Colon] ++ list_tokens (map i_enc (snd kv)).

Lemma lex_member kv ts : foldM lex_step (json_member kv) (ts, Plain) = Ok (ts ++ member_tokens kv, Plain).
Proof. unfold json_member. flat. rewrite (plain_step _ _ _ [] (InStr [])) by reflexivity. rewrite app_nil_r.
  rewrite foldM_app, lex_string_chars by apply str_chars. cbn [bind app].
  assert (Q : forall rest s, foldM lex_step (quote :: rest) (ts, InStr s) = foldM lex_step rest (ts ++ [Str s], Plain)) by reflexivity.
  rewrite Q. rewrite (plain_step _ _ _ [Colon] Plain) by reflexivity. spaces.
  rewrite lex_list. unfold member_tokens. rewrite <- !app_assoc. reflexivity. Qed.

Definition prog_tokens (prog : program) : list token :=
  match prog with
  | [] => [LBrace; RBrace]
  | m :: prog' => [LBrace] ++ member_tokens m ++ flat_map (fun m' => [Comma] ++ member_tokens m') prog' ++ [RBrace]
  end.

Lemma lex_members prog : forall ts,
  foldM lex_step (flat_map (fun m' => chars "," ++ [newline] ++ chars "  " ++ json_member m') prog ++ [newline] ++ chars "}") (ts, Plain)
  = Ok (ts ++ flat_map (fun m' => [Comma] ++ member_tokens m') prog ++ [RBrace], Plain).
Proof. induction prog as [|m prog IH]; intros ts; cbn [flat_map].
  - flat. spaces. rewrite (plain_step _ _ _ [RBrace] Plain) by reflexivity. reflexivity.
  - flat. rewrite (plain_step _ _ _ [Comma] Plain) by reflexivity. spaces. rewrite foldM_app, lex_member. cbn [bind].
    specialize (IH ((ts ++ [Comma]) ++ member_tokens m)). cbn [chars list_ascii_of_string app] in IH. rewrite IH. rewrite <- !app_assoc. reflexivity. Qed.

Lemma lex_prog prog : lex (save_json prog) = Ok (prog_tokens prog).
Proof. unfold lex. destruct prog as [|m prog]; [reflexivity|]. unfold save_json. flat.
  rewrite (plain_step _ _ _ [LBrace] Plain) by reflexivity. spaces. rewrite foldM_app, lex_member. cbn [bind].
  pose proof (lex_members prog (([] ++ [LBrace]) ++ member_tokens m)) as IH. cbn [chars list_ascii_of_string app] in IH. cbn [app]. rewrite IH. cbn [bind prog_tokens app].
  reflexivity. Qed.

(** Parsing. *)
Lemma parse_elems k l : forall d acc, foldM parse_step (flat_map (fun y => [Comma; Num y]) l ++ [RBrack]) (d, PElemSep k acc) = Ok (sset d k (acc ++ l), PSep).
Proof. induction l as [|y l IH]; intros d acc.
  - cbn. rewrite app_nil_r. reflexivity.
  - cbn [flat_map app foldM parse_step bind]. rewrite IH, <- app_assoc. reflexivity. Qed.

Lemma parse_list k l d : foldM parse_step (list_tokens l) (d, PArray k) = Ok (sset d k l, PSep).
Proof. destruct l as [|x l]; [reflexivity|]. cbn [list_tokens app foldM parse_step bind]. apply parse_elems. Qed.

Definition entry (kv : Z * list inst) : text * list Z := (str_of_int (fst kv), map i_enc (snd kv)).

Lemma text_eqb_str a b : text_eqb (str_of_int a) (str_of_int b) = (a =? b).
Proof. unfold text_eqb. destruct (Z.eqb_spec a b) as [->|N]; [apply String.eqb_refl|]. apply String.eqb_neq. intros H. apply N, str_inj.
  rewrite <- (list_ascii_of_string_of_list_ascii (str_of_int a)), H. apply list_ascii_of_string_of_list_ascii. Qed.

Lemma sset_new d kv : ~ In (fst kv) (dkeys d) -> sset (map entry d) (str_of_int (fst kv)) (map i_enc (snd kv)) = map entry (d ++ [kv]).
Proof. induction d as [|[k v] d IH]; intros H; cbn [map app sset entry fst snd]; [destruct kv; reflexivity|].
  rewrite text_eqb_str. destruct (Z.eqb_spec (fst kv) k) as [E|N]; [exfalso; apply H; left; cbn; auto|]. f_equal. apply IH. intros I. apply H. right; exact I. Qed.

Lemma parse_member kv d : ~ In (fst kv) (dkeys d) ->
  foldM parse_step (member_tokens kv) (map entry d, PKey) = Ok (map entry (d ++ [kv]), PSep) /\
  foldM parse_step (member_tokens kv) (map entry d, PFirst) = Ok (map entry (d ++ [kv]), PSep).
Proof. intros H. unfold member_tokens. cbn [app foldM parse_step bind]. rewrite !parse_list, sset_new by exact H. auto. Qed.

Lemma parse_members prog : forall d, NoDup (dkeys (d ++ prog)) ->
  foldM parse_step (flat_map (fun m' => [Comma] ++ member_tokens m') prog ++ [RBrace]) (map entry d, PSep) = Ok (map entry (d ++ prog), PEnd).
Proof. induction prog as [|m prog IH]; intros d N.
  - rewrite app_nil_r. reflexivity.
  - cbn [flat_map]. rewrite <- app_assoc. cbn [app]. cbn [foldM parse_step bind]. rewrite foldM_app.
    destruct (parse_member m d) as [-> _].
    { unfold dkeys in *. rewrite map_app in N. apply NoDup_remove_2 in N. rewrite in_app_iff in N. tauto. }
    cbn [bind]. rewrite IH; rewrite <- app_assoc; [reflexivity|exact N]. Qed.

Lemma parse_prog prog : NoDup (dkeys prog) -> json_load (save_json prog) = Ok (map entry prog).
Proof. intros N. unfold json_load. rewrite lex_prog. cbn [bind]. destruct prog as [|m prog]; [reflexivity|].
  unfold prog_tokens. rewrite foldM_app. cbn [foldM parse_step bind]. rewrite foldM_app.
  destruct (parse_member m []) as [_ E]; [intros []|]. cbn [map] in E. rewrite E. cbn [bind].
  rewrite parse_members by exact N. reflexivity. Qed.

Lemma mapM_caps a l : Forall (fun e => 0 <= e < 2 ^ 32) l -> mapM (fun e => caps e a) l = Ok (map (fun e => mkInst e a) l).
Proof. induction 1 as [|e l He F IH]; [reflexivity|]. cbn [mapM map]. unfold caps at 1.
  replace ((0 <=? e) && (e <? 2 ^ 32)) with true by lia. cbn [bind]. rewrite IH. reflexivity. Qed.

Lemma dset_new {A} (d : dict A) k v : ~ In k (dkeys d) -> dset d k v = d ++ [(k, v)].
Proof. induction d as [|[k' a] d IH]; intros H; cbn [dset app]; [reflexivity|]. destruct (Z.eqb_spec k k') as [->|N]; [exfalso; apply H; left; reflexivity|].
  f_equal. apply IH. intros I. apply H; right; exact I. Qed.

Lemma load_save prog : NoDup (dkeys prog) -> Forall (fun kv => Forall (fun i => 0 <= i_enc i < 2 ^ 32) (snd kv)) prog ->
  load_json (save_json prog) = Ok (map (fun kv => (fst kv, map (fun i => mkInst (i_enc i) (fst kv)) (snd kv))) prog).
Proof. intros N F. unfold load_json. rewrite parse_prog by exact N. cbn [bind].
  set (g := fun kv : Z * list inst => (fst kv, map (fun i => mkInst (i_enc i) (fst kv)) (snd kv))).
  assert (K : forall prog d, NoDup (dkeys (d ++ prog)) -> Forall (fun kv => Forall (fun i => 0 <= i_enc i < 2 ^ 32) (snd kv)) prog ->
    foldM (fun r kv => let* addr := int_of_str (fst kv) in let* l := mapM (fun e => caps e addr) (snd kv) in Ok (dset r addr l)) (map entry prog) (map g d)
    = Ok (map g (d ++ prog))).
  { clear. induction prog as [|[k l] prog IH]; intros d N F; cbn [map foldM]; [rewrite app_nil_r; reflexivity|].
    inversion F as [|? ? Fk F']; subst. cbn [entry fst snd] in *. rewrite int_of_str_of_int. cbn [bind].
    rewrite mapM_caps. 2:{ rewrite Forall_map. exact Fk. } cbn [bind]. rewrite dset_new.
    - rewrite map_map. specialize (IH (d ++ [(k, l)])). rewrite map_app in IH. cbn [map] in IH.
      change (k, map (fun x => mkInst (i_enc x) k) l) with (g (k, l)). rewrite IH; rewrite <- ?app_assoc; [reflexivity|exact N|exact F'].
    - unfold dkeys in *. rewrite map_app in N. cbn [map fst] in N. apply NoDup_remove_2 in N. rewrite map_map. cbn [g fst]. intros I. apply N, in_app_iff. left; exact I. }
  apply (K prog [] N F). Qed.
