(** C159: a saved program that is incomplete, or followed by something else, is refused. *)
From Verif Require Import ListLemmas FlipSpec PacketModel PacketSpec RandomModel RandomSpec RandomProofs JsonModel JsonProofs JsonProps.
From Coq Require Import ZifyBool ZifyNat DecimalString.

(** *** Specification *)
(** The four characters that JSON ignores between values. *)
Definition blank (c : ascii) : Prop := In c [" "; "009"; "010"; "013"]%char.

(** *** Proof *)
Definition quiet_error {A} (r : result A) : Prop := match r with Ok _ => True | Err e => e = ValueError end.
Lemma quiet_bind {A B} (r : result A) (f : A -> result B) : quiet_error r -> (forall a, r = Ok a -> quiet_error (f a)) -> quiet_error (bind r f).
Proof. destruct r; cbn; auto. Qed.
Lemma quiet_fold {A S} (f : S -> A -> result S) l : (forall s a, quiet_error (f s a)) -> forall s, quiet_error (foldM f l s).
Proof. intros H. induction l as [|a l IH]; intros s; cbn [foldM]; [exact I|]. apply quiet_bind; auto. Qed.
Lemma quiet_number s : quiet_error (json_number s).
Proof. unfold json_number. apply quiet_bind; [unfold int_of_str; destruct (NilZero.int_of_string _); reflexivity|]. intros z _. destruct (_ || _); reflexivity. Qed.
Lemma quiet_plain c : quiet_error (lex_plain c).
Proof. unfold lex_plain. repeat match goal with |- context [if ?b then _ else _] => destruct b; [reflexivity|] end. reflexivity. Qed.
Lemma quiet_step st c : quiet_error (lex_step st c).
Proof. destruct st as [ts [|s|s]]; cbn [lex_step].
  - apply quiet_bind; [apply quiet_plain|]. intros [n m] _. reflexivity.
  - destruct (Ascii.eqb c quote); [reflexivity|]. destruct (_ || _); reflexivity.
  - destruct (is_digit c); [reflexivity|]. apply quiet_bind; [apply quiet_number|]. intros z _. apply quiet_bind; [apply quiet_plain|]. intros [n m] _. reflexivity. Qed.
Lemma quiet_lex t : quiet_error (lex t).
Proof. unfold lex. apply quiet_bind; [apply quiet_fold, quiet_step|]. intros [ts [|s|s]] _; try reflexivity. apply quiet_bind; [apply quiet_number|]. reflexivity. Qed.
Lemma quiet_parse st t : quiet_error (parse_step st t).
Proof. destruct st as [d s]. destruct s, t; reflexivity. Qed.

(** Without a closing brace nothing is complete. *)
Lemma plain_open c new m : c <> "}"%char -> lex_plain c = Ok (new, m) -> ~ In RBrace new.
Proof. intros N. unfold lex_plain. repeat match goal with |- context [if ?b then _ else _] => destruct b eqn:?; [intros H; injection H as <- <-; cbn [In]; try (intuition discriminate)|] end; [|discriminate].
  apply Ascii.eqb_eq in Heqb1. contradiction. Qed.
Lemma lex_open t : ~ In "}"%char t -> forall ts m ts' m', ~ In RBrace ts -> foldM lex_step t (ts, m) = Ok (ts', m') -> ~ In RBrace ts'.
Proof. induction t as [|c t IH]; intros N ts m ts' m' F E; cbn [foldM] in E; [congruence|].
  destruct (lex_step (ts, m) c) as [[ts1 m1]|] eqn:S; cbn [bind] in E; [|discriminate]. apply (IH (fun I => N (or_intror I)) ts1 m1 ts' m'); [|exact E]. clear IH E.
  assert (C : c <> "}"%char) by (intros ->; apply N; left; reflexivity). destruct m as [|s|s]; cbn [lex_step] in S.
  - destruct (lex_plain c) as [[new m2]|] eqn:L; cbn [bind] in S; [|discriminate]. injection S as <- <-. rewrite in_app_iff. intros [I|I]; [exact (F I)|exact (plain_open _ _ _ C L I)].
  - destruct (Ascii.eqb c quote); [injection S as <- <-; rewrite in_app_iff; intros [I|[I|[]]]; [exact (F I)|discriminate I]|]. destruct (_ || _); [discriminate|]. injection S as <- <-. exact F.
  - destruct (is_digit c); [injection S as <- <-; exact F|]. destruct (json_number s) as [z|]; cbn [bind] in S; [|discriminate]. destruct (lex_plain c) as [[new m2]|] eqn:L; cbn [bind] in S; [|discriminate]. injection S as <- <-.
    rewrite in_app_iff. cbn [In]. intros [I|[I|I]]; [exact (F I)|discriminate I|exact (plain_open _ _ _ C L I)]. Qed.
Lemma parse_open ts : ~ In RBrace ts -> forall d s d' s', s <> PEnd -> foldM parse_step ts (d, s) = Ok (d', s') -> s' <> PEnd.
Proof. induction ts as [|t ts IH]; intros N d s d' s' F E; cbn [foldM] in E; [congruence|].
  destruct (parse_step (d, s) t) as [[d1 s1]|] eqn:S; cbn [bind] in E; [|discriminate]. apply (IH (fun I => N (or_intror I)) d1 s1 d' s'); [|exact E].
  assert (T : t <> RBrace) by (intros ->; apply N; left; reflexivity). destruct s, t; cbn [parse_step] in S; try discriminate S; try congruence; injection S as <- <-; discriminate. Qed.
Lemma load_open t : ~ In "}"%char t -> load_json t = Err ValueError.
Proof. intros N. unfold load_json, json_load. pose proof (quiet_lex t) as Q. destruct (lex t) as [ts|e] eqn:L; cbn [bind]; [|cbn in Q; subst; reflexivity].
  assert (O : ~ In RBrace ts).
  { unfold lex in L. destruct (foldM lex_step t ([], Plain)) as [[ts0 m]|] eqn:F; cbn [bind] in L; [|discriminate]. pose proof (lex_open t N [] Plain ts0 m (fun X => X) F) as O.
    destruct m as [|s|s]; [congruence|discriminate|]. destruct (json_number s); cbn [bind] in L; [|discriminate]. injection L as <-. rewrite in_app_iff. cbn [In]. intros [I|[I|[]]]; [exact (O I)|discriminate I]. }
  pose proof (quiet_fold parse_step ts quiet_parse ([], PStart)) as Q2. destruct (foldM parse_step ts ([], PStart)) as [[d s]|e] eqn:P; cbn [bind]; [|cbn in Q2; subst; reflexivity].
  pose proof (parse_open ts O [] PStart d s ltac:(discriminate) P). destruct s; try reflexivity. congruence. Qed.

(** The closing brace is the last character. *)
Lemma open_str z : ~ In "}"%char (str_of_int z).
Proof. intros H. pose proof (str_chars z) as F. rewrite forallb_forall in F. specialize (F _ H). vm_compute in F. discriminate F. Qed.
Lemma open_list l : ~ In "}"%char (json_list l).
Proof. unfold json_list. destruct l as [|x l]; [cbn; intuition discriminate|]. rewrite !in_app_iff. pose proof (open_str x).
  assert (~ In "}"%char (flat_map (fun y => chars "," ++ [newline] ++ chars "    " ++ str_of_int y) l)). { intros H0. apply in_flat_map in H0. destruct H0 as (y & _ & H0). rewrite !in_app_iff in H0. pose proof (open_str y). cbn in H0. intuition discriminate. }
  cbn [In chars list_ascii_of_string newline]. intuition discriminate. Qed.
Lemma open_member m : ~ In "}"%char (json_member m).
Proof. unfold json_member. rewrite !in_app_iff. pose proof (open_str (fst m)). pose proof (open_list (map i_enc (snd m))). cbn [In chars list_ascii_of_string quote]. intuition discriminate. Qed.
Lemma saved_ends prog : exists body, save_json prog = body ++ ["}"%char] /\ ~ In "}"%char body.
Proof. unfold save_json. destruct prog as [|m prog]; [exists ["{"%char]; split; [reflexivity|cbn; intuition discriminate]|].
  exists (chars "{" ++ [newline] ++ chars "  " ++ json_member m ++ flat_map (fun m' => chars "," ++ [newline] ++ chars "  " ++ json_member m') prog ++ [newline]). split; [rewrite <- !app_assoc; reflexivity|].
  assert (~ In "}"%char (flat_map (fun m' => chars "," ++ [newline] ++ chars "  " ++ json_member m') prog)). { intros H0. apply in_flat_map in H0. destruct H0 as (y & _ & H0). rewrite !in_app_iff in H0. pose proof (open_member y). cbn [In chars list_ascii_of_string newline] in H0. intuition discriminate. }
  pose proof (open_member m). rewrite !in_app_iff. cbn [In chars list_ascii_of_string newline]. intuition discriminate. Qed.

(** C159: loading a file of which the end is missing raises ValueError. *)
Theorem C159_cut : forall prog t rest, save_json prog = t ++ rest -> rest <> [] -> load_json t = Err ValueError.
Proof. intros prog t rest E N. apply load_open. destruct (saved_ends prog) as (body & B & O). rewrite B in E. destruct (exists_last N) as (r & x & ->). rewrite app_assoc in E. apply app_inj_tail in E. destruct E as [-> _]. intros I. apply O. apply in_or_app. left; exact I. Qed.
Print Assumptions C159_cut.

(** What follows the closing brace. *)
Lemma lex_saved prog : foldM lex_step (save_json prog) ([], Plain) = Ok (prog_tokens prog, Plain).
Proof. destruct prog as [|m prog]; [reflexivity|]. unfold save_json. flat.
  rewrite (plain_step _ _ _ [LBrace] Plain) by reflexivity. spaces. rewrite foldM_app, lex_member. cbn [bind].
  pose proof (lex_members prog (([] ++ [LBrace]) ++ member_tokens m)) as IH. cbn [chars list_ascii_of_string app] in IH. cbn [app]. rewrite IH. reflexivity. Qed.
Lemma plain_more c new m : lex_plain c = Ok (new, m) -> new <> [] \/ m <> Plain \/ blank c.
Proof. unfold lex_plain. repeat match goal with |- context [if ?b then _ else _] => destruct b eqn:?; [intros H; injection H as <- <-; try (left; discriminate); try (right; left; discriminate)|] end; [|discriminate].
  right; right. unfold blank, newline in *. rewrite !Bool.orb_true_iff in Heqb. rewrite !Ascii.eqb_eq in Heqb. cbn [In]. intuition. Qed.
Lemma plain_blank c : blank c -> lex_plain c = Ok ([], Plain).
Proof. intros [<-|[<-|[<-|[<-|[]]]]]; reflexivity. Qed.
Lemma lex_blank rest : Forall blank rest -> forall ts, foldM lex_step rest (ts, Plain) = Ok (ts, Plain).
Proof. induction 1 as [|c rest B F IH]; intros ts; cbn [foldM]; [reflexivity|]. cbn [lex_step]. rewrite (plain_blank c B). cbn [bind]. rewrite app_nil_r. apply IH. Qed.
Lemma lex_more rest ts0 : forall ts m ts' m', (exists new, ts = ts0 ++ new /\ (new <> [] \/ m <> Plain \/ ~ Forall blank rest)) -> foldM lex_step rest (ts, m) = Ok (ts', m') -> exists new, ts' = ts0 ++ new /\ (new <> [] \/ m' <> Plain).
Proof. induction rest as [|c rest IH]; intros ts m ts' m' (new & -> & H) E; cbn [foldM] in E.
  - injection E as <- <-. exists new. split; [reflexivity|]. destruct H as [H|[H|H]]; auto; exfalso; apply H; constructor.
  - destruct (lex_step (ts0 ++ new, m) c) as [[ts1 m1]|] eqn:S; cbn [bind] in E; [|discriminate]. apply (IH ts1 m1 ts' m'); [|exact E]. clear IH E.
    destruct m as [|s|s]; cbn [lex_step] in S.
    + destruct (lex_plain c) as [[n2 m2]|] eqn:L; cbn [bind] in S; [|discriminate]. injection S as <- <-. exists (new ++ n2). split; [apply app_assoc_reverse|].
      destruct (plain_more _ _ _ L) as [P|[P|P]]; [left; destruct new; [exact P|discriminate]|auto|]. destruct H as [H|[H|H]]; [left; destruct new; [congruence|discriminate]|congruence|]. right; right. intros F. apply H. constructor; assumption.
    + destruct (Ascii.eqb c quote); [injection S as <- <-; exists (new ++ [Str s]); split; [apply app_assoc_reverse|left; destruct new; discriminate]|]. destruct (_ || _); [discriminate|]. injection S as <- <-. exists new. split; [reflexivity|right; left; discriminate].
    + destruct (is_digit c); [injection S as <- <-; exists new; split; [reflexivity|right; left; discriminate]|]. destruct (json_number s) as [z|]; cbn [bind] in S; [|discriminate]. destruct (lex_plain c) as [[n2 m2]|] eqn:L; cbn [bind] in S; [|discriminate]. injection S as <- <-.
      exists (new ++ [Num z] ++ n2). split; [rewrite <- app_assoc; reflexivity|left; destruct new; discriminate]. Qed.
Lemma parse_saved prog : NoDup (dkeys prog) -> foldM parse_step (prog_tokens prog) ([], PStart) = Ok (map entry prog, PEnd).
Proof. intros N. pose proof (parse_prog prog N) as E. unfold json_load in E. rewrite lex_prog in E. cbn [bind] in E. destruct (foldM parse_step (prog_tokens prog) ([], PStart)) as [[d s]|]; cbn [bind] in E; [|discriminate]. destruct s; try discriminate E. congruence. Qed.

(** C159: anything but white space behind a saved program makes loading raise ValueError; white space changes nothing. *)
Theorem C159_appended : forall prog rest, NoDup (dkeys prog) ->
  (Forall blank rest -> load_json (save_json prog ++ rest) = load_json (save_json prog)) /\
  (~ Forall blank rest -> load_json (save_json prog ++ rest) = Err ValueError).
Proof. intros prog rest N. split; intros B.
  - unfold load_json, json_load. replace (lex (save_json prog ++ rest)) with (lex (save_json prog)); [reflexivity|]. unfold lex. rewrite foldM_app, lex_saved. cbn [bind]. rewrite (lex_blank rest B). reflexivity.
  - unfold load_json. enough (json_load (save_json prog ++ rest) = Err ValueError) as -> by reflexivity. unfold json_load.
    pose proof (quiet_lex (save_json prog ++ rest)) as Q. destruct (lex (save_json prog ++ rest)) as [ts|e] eqn:L; cbn [bind]; [|cbn in Q; subst; reflexivity].
    assert (exists n ns, ts = prog_tokens prog ++ n :: ns) as (n & ns & ->).
    { unfold lex in L. rewrite foldM_app, lex_saved in L. cbn [bind] in L. destruct (foldM lex_step rest (prog_tokens prog, Plain)) as [[ts1 m]|] eqn:F; cbn [bind] in L; [|discriminate].
      destruct (lex_more rest (prog_tokens prog) _ _ ts1 m (ex_intro _ [] (conj (eq_sym (app_nil_r _)) (or_intror (or_intror B)))) F) as (new & -> & H).
      destruct m as [|s|s]; [|discriminate L|].
      - destruct H as [H|H]; [|congruence]. injection L as <-. destruct new as [|n ns]; [congruence|]. eauto.
      - destruct (json_number s) as [z|]; cbn [bind] in L; [|discriminate]. injection L as <-. rewrite <- app_assoc. destruct new as [|n ns]; cbn [app]; eauto. }
    rewrite foldM_app, (parse_saved prog N). cbn [bind foldM]. destruct n; reflexivity. Qed.
Print Assumptions C159_appended.
Example C159_example : let p := [(8, [mkInst 0xe92d4800 8; mkInst 5 8]); (12, [mkInst 7 12])] in NoDup (dkeys p) /\
  load_json (save_json p) = Ok p /\ load_json (firstn 40 (save_json p)) = Err ValueError /\ load_json (save_json p ++ [newline; " "%char]) = Ok p /\ load_json (save_json p ++ save_json []) = Err ValueError.
Proof. split; [repeat constructor; cbn; intuition discriminate|]. vm_compute. auto. Qed.
