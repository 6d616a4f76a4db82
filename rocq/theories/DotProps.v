(** C152: graphs written in the Dot language. *)
From Verif Require Import ListLemmas GraphModel GraphProofs CfgModel CfgProofs CfgProofs2 CfgProofs3 CfgProps CfgFlowProps RemoveCondProofs BuiltProofs SsaModel SsaProps DotModel JsonProofs.
From Coq Require Import ZifyBool ZifyNat DecimalString DecimalZ.

(** *** Specification: every node and every edge once, and names that tell the nodes apart. *)
Definition drawn {N} (nodes : list N) (R : N -> N -> Prop) (ns : list text) (es : list (text * text)) : Prop :=
  NoDup ns /\ NoDup es /\ exists name : N -> text,
    (forall x y, In x nodes -> In y nodes -> name x = name y -> x = y) /\ ns = map name nodes /\
    (forall x y, In x nodes -> In y nodes -> In (name x, name y) es <-> R x y) /\ forall a b, In (a, b) es -> exists x y, In x nodes /\ In y nodes /\ a = name x /\ b = name y.

(** *** Names *)
Lemma text_eqb_iff a b : text_eqb a b = true <-> a = b.
Proof. unfold text_eqb. rewrite String.eqb_eq. split; [|congruence]. intros H. rewrite <- (list_ascii_of_string_of_list_ascii a), <- (list_ascii_of_string_of_list_ascii b), H. reflexivity. Qed.
Lemma text_mem_iff t l : text_mem t l = true <-> In t l.
Proof. unfold text_mem. rewrite existsb_exists. split; [intros (x & I & E); apply text_eqb_iff in E; subst; exact I|intros I; exists t; split; [exact I|apply text_eqb_iff; reflexivity]]. Qed.
(** Two runs of characters of one class, each followed by a character outside it. *)
Lemma run_unique (f : ascii -> bool) : forall s s' c c' r r', forallb f s = true -> forallb f s' = true -> f c = false -> f c' = false -> s ++ c :: r = s' ++ c' :: r' -> s = s' /\ c = c' /\ r = r'.
Proof. induction s as [|x s IH]; intros [|y s'] c c' r r' F F' C C' E; cbn in *.
  - injection E as -> ->. auto.
  - injection E as -> _. apply andb_true_iff in F'. destruct F'. congruence.
  - injection E as <- _. apply andb_true_iff in F. destruct F. congruence.
  - injection E as -> E. apply andb_true_iff in F. apply andb_true_iff in F'. destruct (IH s' c c' r r' (proj2 F) (proj2 F') C C' E) as (-> & -> & ->). auto. Qed.
Lemma digits_of_nonneg z : 0 <= z -> exists c s, str_of_int z = c :: s /\ forallb is_digit (c :: s) = true.
Proof. intros H. unfold str_of_int. destruct z as [|p|p]; [| |lia].
  - exists "0"%char, []. split; reflexivity.
  - cbn [Z.to_int NilZero.string_of_int]. destruct (nilzero_cons (Pos.to_uint p)) as (c & s & E & A & B). exists c, s. rewrite E. split; [reflexivity|]. cbn [forallb]. rewrite A, B. reflexivity. Qed.

(** Three shapes of names: number first, number in brackets. *)
Definition block_shape (b : Z) (t : text) : Prop := (exists r, t = str_of_int b ++ "-"%char :: r) \/ (exists r, t = " "%char :: "<"%char :: str_of_int b ++ ">"%char :: r).
Lemma shape_unique a b t t' r r' : 0 <= a -> 0 <= b -> block_shape a t -> block_shape b t' -> t ++ r = t' ++ r' -> a = b.
Proof. intros Ha Hb. destruct (digits_of_nonneg a Ha) as (c & s & Ea & Da). destruct (digits_of_nonneg b Hb) as (c' & s' & Eb & Db). intros [[x ->]|[x ->]] [[y ->]|[y ->]] E; cbn [app] in E.
  - rewrite <- !app_assoc in E. cbn [app] in E. apply str_inj. rewrite Ea, Eb in *. eapply run_unique in E; try eassumption; try reflexivity. apply E.
  - exfalso. rewrite Ea in E. injection E as E _. cbn [forallb] in Da. rewrite E in Da. discriminate Da.
  - exfalso. rewrite Eb in E. injection E as E _. cbn [forallb] in Db. rewrite <- E in Db. discriminate Db.
  - injection E as E. rewrite <- !app_assoc in E. cbn [app] in E. apply str_inj. rewrite Ea, Eb in *. eapply run_unique in E; try eassumption; try reflexivity. apply E. Qed.
Definition value_text (x : name) : text := chars "(" ++ str_of_int (fst x) ++ chars ", " ++ str_of_int (snd x) ++ chars ")".
Definition signed (c : ascii) : bool := Ascii.eqb c "-" || is_digit c.
Lemma value_unique x y r r' : value_text x ++ r = value_text y ++ r' -> x = y /\ r = r'.
Proof. unfold value_text. cbn [chars list_ascii_of_string app]. intros E. injection E as E. rewrite <- !app_assoc in E. cbn [app] in E. eapply (run_unique signed) in E; try apply str_chars; try reflexivity. destruct E as (A & _ & E). injection E as E. rewrite <- !app_assoc in E. cbn [app] in E.
  eapply (run_unique signed) in E; try apply str_chars; try reflexivity. destruct E as (B & _ & E). split; [|exact E]. apply str_inj in A, B. destruct x, y; cbn in *; congruence. Qed.

Lemma nodup_map_in {A B} (f : A -> B) l : (forall x y, In x l -> In y l -> f x = f y -> x = y) -> NoDup l -> NoDup (map f l).
Proof. intros H N. induction N as [|x l I N IH]; [constructor|]. cbn [map]. constructor; [|apply IH; intros a b Ia Ib; apply H; right; assumption]. rewrite in_map_iff. intros (y & E & J). apply I. rewrite <- (H y x (or_intror J) (or_introl eq_refl) E). exact J. Qed.
(** *** Writing *)
Section Write.
  Context {N : Type} (nm : N -> result text) (name : N -> text) (nodes : list N) (edges : list (N * N)).
  Context (named : forall x, In x nodes -> nm x = Ok (name x)).
  Context (inside : forall x y, In (x, y) edges -> In x nodes /\ In y nodes).
  Context (apart : forall x y r r', In x nodes -> In y nodes -> name x ++ r = name y ++ r' -> x = y).
  Context (nodes_once : NoDup nodes).
  Context (edges_once : NoDup edges).
  Let both (e : N * N) : text * text := (name (fst e), name (snd e)).
  Let key (e : N * N) : text := edge_text (name (fst e)) (name (snd e)).
  Lemma apart_name x y : In x nodes -> In y nodes -> name x = name y -> x = y.
  Proof. intros A B E. apply (apart x y [] [] A B). rewrite !app_nil_r. exact E. Qed.
  Lemma key_inj e e' : In e edges -> In e' edges -> key e = key e' -> e = e'.
  Proof. destruct e as [a b], e' as [c d]. intros I J E. destruct (inside _ _ I) as [A B]. destruct (inside _ _ J) as [C D]. unfold key, edge_text in E. cbn [fst snd] in E. assert (a = c) as -> by (eapply apart; eauto). apply app_inv_head in E. apply app_inv_head in E. assert (b = d) as -> by (apply apart_name; assumption). reflexivity. Qed.
  Lemma write_fold : forall es seen out, incl es edges -> NoDup es -> (forall e, In e es -> ~ In (key e) seen) -> exists seen', foldM (write_edge nm) es (seen, out) = Ok (seen', out ++ map both es).
  Proof. induction es as [|[x y] es IH]; intros seen out Inc Nd Ns; cbn [foldM].
    - exists seen. cbn [map]. rewrite app_nil_r. reflexivity.
    - destruct (inside x y (Inc _ (or_introl eq_refl))) as [A B]. unfold write_edge at 1. cbn [fst snd]. rewrite (named x A), (named y B). cbn [bind].
      destruct (text_mem (edge_text (name x) (name y)) seen) eqn:M; [exfalso; apply text_mem_iff in M; exact (Ns (x, y) (or_introl eq_refl) M)|]. cbn [bind]. apply NoDup_cons_iff in Nd as [Nx Nd].
      destruct (IH (edge_text (name x) (name y) :: seen) (out ++ [(name x, name y)])) as (s' & E).
      + intros e I. apply Inc. right. exact I.
      + exact Nd.
      + intros e I [K|K]; [|exact (Ns e (or_intror I) K)]. apply Nx. assert (e = (x, y)) as <-; [|exact I]. symmetry. apply (key_inj (x, y) e); [apply Inc; left; reflexivity|apply Inc; right; exact I|exact K].
      + exists s'. rewrite E, <- app_assoc. reflexivity. Qed.
  Lemma write_all : dot_write nm nodes edges = Ok (map name nodes, map both edges) /\ drawn nodes (fun x y => In (x, y) edges) (map name nodes) (map both edges).
  Proof. split.
    - unfold dot_write. assert (X : mapM nm nodes = Ok (map name nodes)). { clear - named. induction nodes as [|x l IH]; [reflexivity|]. cbn [mapM map]. rewrite (named x (or_introl eq_refl)), IH by (intros y I; apply named; right; exact I). reflexivity. }
      rewrite X. cbn [bind]. destruct (write_fold edges [] [] (fun e I => I) edges_once ltac:(intros e _ [])) as (s & E). rewrite E. reflexivity.
    - split; [|split; [|exists name; split; [exact apart_name|split; [reflexivity|split]]]].
      + apply nodup_map_in; [|exact nodes_once]. intros x y A B. now apply apart_name.
      + apply nodup_map_in; [|exact edges_once]. intros [a b] [c d] I J E. unfold both in E; cbn [fst snd] in E. injection E as E1 E2. destruct (inside _ _ I), (inside _ _ J). f_equal; now apply apart_name.
      + intros x y A B. rewrite in_map_iff. split; [|intros I; exists (x, y); auto]. intros ([a b] & E & I). unfold both in E; cbn [fst snd] in E. injection E as E1 E2. destruct (inside _ _ I). assert (a = x) as <- by now apply apart_name. assert (b = y) as <- by now apply apart_name. exact I.
      + intros a b I. apply in_map_iff in I as ([x y] & E & I). unfold both in E. cbn [fst snd] in E. injection E as <- <-. destruct (inside _ _ I). eauto 6. Qed.
End Write.

(** *** The edges of a graph *)
Lemma in_g_edges g u v : wf g -> In (u, v) (g_edges g) <-> edges g u v.
Proof. intros W. unfold g_edges, edges, has_edge. rewrite in_flat_map. split.
  - intros ([a l] & I & J). apply in_map_iff in J as (w & E & J). cbn [fst snd] in *. injection E as <- <-. rewrite (dget_nodup_in (node_neighbors g) a l (proj1 W) I). now apply zmem_in.
  - destruct (dget (node_neighbors g) u) as [l|] eqn:G; [|discriminate]. intros Z. apply zmem_in in Z. exists (u, l). split; [apply dget_in; exact G|]. apply in_map_iff. exists v. auto. Qed.
Lemma nodup_g_edges g : wf g -> NoDup (g_edges g).
Proof. intros (Nd & _ & _ & Nb & _). unfold g_edges, g_nodes, nb in *. induction (node_neighbors g) as [|[a l] d IH]; [constructor|]. cbn [flat_map fst snd dkeys map] in *. apply NoDup_cons_iff in Nd as [Na Nd]. apply NoDup_app_intro.
  - apply nodup_map_in; [intros x y _ _ E; congruence|]. specialize (Nb a). cbn [dget] in Nb. rewrite Z.eqb_refl in Nb. exact Nb.
  - apply IH; [exact Nd|]. intros u. destruct (dget d u) as [m|] eqn:G; [|constructor]. specialize (Nb u). cbn [dget] in Nb. destruct (Z.eqb_spec u a) as [Eu|N]; [|rewrite G in Nb; exact Nb]. subst u. exfalso. apply Na. apply dget_in in G. apply (in_map fst) in G. exact G.
  - intros [x y] I J. apply in_map_iff in I as (v & E & _). injection E as <- <-. apply Na. apply in_flat_map in J as ([b m] & J1 & J2). apply in_map_iff in J2 as (w & E & _). cbn [fst] in E. injection E as <- _. apply (in_map fst) in J1. exact J1. Qed.

Lemma block_named show p st b : build p = Ok st -> In b (g_nodes (c_graph st)) -> 1 <= b /\ exists t, block_name show st b = Ok t /\ block_shape b t.
Proof. intros E I. destruct p as [|c p]; [injection E as <-; destruct I|]. destruct (CfgProofs3.build_ok (c :: p) ltac:(discriminate)) as (st' & E' & (G & _ & _ & _ & _ & KB & _) & _). assert (st' = st) as -> by congruence. split; [apply (good_nodes st b G) in I; lia|].
  destruct (CfgProofs.inside st b G I) as (k & D & K). unfold block_name. rewrite D. destruct k; try (eexists; split; [reflexivity|]).
  - apply KB in K. destruct (instructions st b) as [|i l]; [congruence|]. destruct (Nat.eqb i (List.last l i)); eexists; (split; [reflexivity|]); left; eexists; reflexivity.
  - left. eexists. reflexivity.
  - right. eexists. reflexivity.
  - left. eexists. reflexivity.
  - left. eexists. reflexivity. Qed.

(** ** C152 *)
(** A graph on blocks of a control flow graph: the graph itself, what is left of it without the
    conditional nodes, a dominator tree. *)
Theorem C152_blocks : forall program st g show, build program = Ok st -> constructed g -> incl (g_nodes g) (g_nodes (c_graph st)) ->
  exists ns es, dot_write (block_name show st) (g_nodes g) (g_edges g) = Ok (ns, es) /\ drawn (g_nodes g) (edges g) ns es.
Proof. intros program st g show E C Inc. pose proof (constructed_wf g C) as W.
  set (name := fun b => match block_name show st b with Ok t => t | Err _ => [] end).
  assert (Nm : forall b, In b (g_nodes g) -> 1 <= b /\ block_name show st b = Ok (name b) /\ block_shape b (name b)). { intros b I. destruct (block_named show program st b E (Inc b I)) as (L & t & T & S). split; [exact L|]. unfold name. rewrite T. auto. }
  destruct (write_all (block_name show st) name (g_nodes g) (g_edges g)) as [A B].
  - intros x I. apply Nm, I.
  - intros x y I. apply (in_g_edges g x y W) in I. apply has_edge_iff in I. exact (edge_nodes g x y W I).
  - intros x y r r' I J K. destruct (Nm x I) as (Lx & _ & Sx). destruct (Nm y J) as (Ly & _ & Sy). apply (shape_unique x y (name x) (name y) r r'); try assumption; lia.
  - exact (proj1 W).
  - exact (nodup_g_edges g W).
  - eexists _, _. split; [exact A|]. destruct B as (B1 & B2 & nm & B3 & B4 & B5 & B6). split; [exact B1|]. split; [exact B2|]. exists nm. split; [exact B3|]. split; [exact B4|]. split; [|exact B6]. intros x y I J. rewrite (B5 x y I J). apply in_g_edges, W. Qed.
Print Assumptions C152_blocks.
Theorem C152_values : forall p g root st vg, build_ssa p g root = Ok (st, vg) ->
  exists ns es, dot_write value_name (v_nodes vg) (v_edges vg) = Ok (ns, es) /\ drawn (v_nodes vg) (fun x y => In (x, y) (v_edges vg)) ns es.
Proof. intros p g root st vg E. destruct (C84_value_dependency p g root st vg E) as (A & B & _ & D). destruct (write_all value_name value_text (v_nodes vg) (v_edges vg)) as [X Y].
  - intros x _. reflexivity.
  - intros x y I. split; apply D; left; eauto.
  - intros x y r r' _ _ K. apply (value_unique x y r r' K).
  - exact A.
  - exact B.
  - eauto. Qed.
Print Assumptions C152_values.
(** A conditional instruction between two others, with and without the conditional node; text
    with the separator in it. *)
Definition dot_program := [Ci false false false 14 0 None; Ci false false false 0 4 None; Ci false false false 14 8 None; Ci false false false 14 12 None].
Definition dot_show (i : nat) : text := chars (match i with O => "sub r1-1" | 1%nat => "moveq" | 2%nat => "add" | _ => "nop" end).
Example C152_example : exists st g', build dot_program = Ok st /\ remove_conditionals (conditional_node st) (c_graph st) = Ok g' /\ incl (g_nodes g') (g_nodes (c_graph st)) /\
  dot_write (block_name dot_show st) (g_nodes (c_graph st)) (g_edges (c_graph st)) =
    Ok (map chars ["1-ROOT"; "2-END"; "3-sub r1-1"; "4-moveq"; " <5> "; "6- add ... nop"],
        map (fun e => (chars (fst e), chars (snd e))) [("1-ROOT", "3-sub r1-1"); ("3-sub r1-1", " <5> "); ("4-moveq", "6- add ... nop"); (" <5> ", "4-moveq"); (" <5> ", "6- add ... nop"); ("6- add ... nop", "2-END")])%string /\
  dot_write (block_name dot_show st) (g_nodes g') (g_edges g') =
    Ok (map chars ["1-ROOT"; "2-END"; "3-sub r1-1"; "4-moveq"; "6- add ... nop"],
        map (fun e => (chars (fst e), chars (snd e))) [("1-ROOT", "3-sub r1-1"); ("3-sub r1-1", "4-moveq"); ("3-sub r1-1", "6- add ... nop"); ("4-moveq", "6- add ... nop"); ("6- add ... nop", "2-END")])%string /\
  dot_write value_name [(3, 1); (10, 2)] [((3, 1), (10, 2)); ((10, 2), (10, 2))] = Ok (map chars ["(3, 1)"; "(10, 2)"]%string, map (fun e => (chars (fst e), chars (snd e))) [("(3, 1)", "(10, 2)"); ("(10, 2)", "(10, 2)")]%string).
Proof. eexists _, _. split; [vm_compute; reflexivity|]. split; [vm_compute; reflexivity|]. split; [intros x I; vm_compute in I |- *; intuition|]. vm_compute. repeat split. Qed.
