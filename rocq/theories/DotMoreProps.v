(** C173, C174: graphs and hypergraphs written in the Dot language and read back. *)
From Verif Require Import ListLemmas DotModel DotProps DotMoreModel.
From Coq Require Import ZifyBool ZifyNat.
Open Scope Z_scope.

(** ** Specification *)
(** Edges of a graph that was read, in either direction if it is undirected. *)
Definition edge_of (r : rgraph) (a b : text) (wt : option text) (label : text) : Prop :=
  In (a, b, wt, label) (r_edges r) \/ (r_directed r = false /\ In (b, a, wt, label) (r_edges r)).
Definition one_word (f : ascii -> bool) (t : text) : Prop := forallb f t = true.
Definition no_dash (c : ascii) : bool := negb (Ascii.eqb c "-").
(** A pygraph graph: nodes and edges once, edges between nodes, undirected edges in both
    directions with one label and one weight; names that tell the nodes apart. *)
Definition proper {N} (g : wgraph N) : Prop :=
  NoDup (w_nodes g) /\ NoDup (w_edges g) /\ (forall x y, In (x, y) (w_edges g) -> In x (w_nodes g) /\ In y (w_nodes g)) /\
  (forall x y, In x (w_nodes g) -> In y (w_nodes g) -> w_name g x = w_name g y -> x = y) /\
  (w_directed g = false -> forall x y, In (x, y) (w_edges g) -> In (y, x) (w_edges g) /\ w_label g (x, y) = w_label g (y, x) /\ w_weight g (x, y) = w_weight g (y, x)).
(** [r] is [g] with the nodes called [name]. *)
Definition same_graph {N} (g : wgraph N) (name : N -> text) (label : N * N -> text) (weight : N * N -> option text) (r : rgraph) : Prop :=
  r_directed r = w_directed g /\ r_nodes r = map name (w_nodes g) /\ NoDup (r_edges r) /\
  (forall a b wt lb, edge_of r a b wt lb <-> exists x y, In (x, y) (w_edges g) /\ a = name x /\ b = name y /\ wt = weight (x, y) /\ lb = label (x, y)).

(** ** Proofs *)
Lemma joins_iff a b e : joins a b e = true <-> fst (fst (fst e)) = a /\ snd (fst (fst e)) = b.
Proof. destruct e as [[[x y] w] l]. cbn [joins fst snd]. rewrite andb_true_iff, !text_eqb_iff. intuition congruence. Qed.
Lemma edge_text_inj a b c d : one_word no_dash a -> one_word no_dash c -> edge_text a b = edge_text c d -> a = c /\ b = d.
Proof. intros A C E. unfold edge_text in E. cbn [chars list_ascii_of_string app] in E. eapply (run_unique no_dash) in E; try eassumption; try reflexivity. tauto. Qed.
Section Graph.
  Context {N : Type} (g : wgraph N) (weighted : bool) (q : text -> text).
  Context (P : proper g) (dashless : forall x, In x (w_nodes g) -> one_word no_dash (w_name g x)).
  Context (q_inj : forall a b, q a = q b -> a = b).
  Let key (e : N * N) : text := edge_text (w_name g (fst e)) (w_name g (snd e)).
  Let rev (e : N * N) : N * N := (snd e, fst e).
  Let written_label (e : N * N) : option text := match w_label g e with [] => if weighted then Some (w_weight g e) else None | t => Some t end.
  Let written (e : N * N) : dedge := DEdge (w_name g (fst e)) (w_name g (snd e)) (written_label e) (if weighted then Some (w_weight g e) else None).
  Lemma key_same e e' : In (fst e) (w_nodes g) -> In (snd e) (w_nodes g) -> In (fst e') (w_nodes g) -> In (snd e') (w_nodes g) -> key e = key e' -> e = e'.
  Proof. destruct P as (_ & _ & _ & I & _). destruct e as [a b], e' as [c d]. cbn [fst snd]. intros A B C D E. unfold key in E. cbn [fst snd] in E. destruct (edge_text_inj _ _ _ _ (dashless a A) (dashless c C) E) as [E1 E2]. f_equal; apply I; assumption. Qed.
  Definition chosen (es : list (N * N)) : Prop := incl es (w_edges g) /\ NoDup es /\ (w_directed g = false -> forall x y, In (x, y) es -> In (y, x) es -> x = y).
  Lemma write_chosen : forall todo es, incl todo (w_edges g) -> chosen es -> exists es', chosen es' /\ incl es es' /\ (forall e, In e todo -> In e es' \/ (w_directed g = false /\ In (rev e) es')) /\
    fold_left (write_one weighted g) todo (List.rev (map key es), map written es) = (List.rev (map key es'), map written es').
  Proof. destruct P as (_ & _ & Ins & _ & _). induction todo as [|[x y] todo IH]; intros es Inc C; cbn [fold_left].
    - exists es. split; [exact C|]. split; [intros e I; exact I|]. split; [intros e []|reflexivity].
    - assert (Inc' : incl todo (w_edges g)) by (intros e I; apply Inc; right; exact I). destruct (Ins x y (Inc _ (or_introl eq_refl))) as [Ix Iy].
      assert (Seen : forall e, In (fst e) (w_nodes g) -> In (snd e) (w_nodes g) -> text_mem (key e) (List.rev (map key es)) = true <-> In e es).
      { intros e A B. rewrite text_mem_iff, <- in_rev, in_map_iff. split; [|intros I; exists e; auto]. intros (e' & E & I). destruct e' as [c d]. destruct (Ins c d (proj1 C _ I)). rewrite (key_same e (c, d)); auto. }
      unfold write_one at 2. cbn [fst snd]. change (edge_text (w_name g x) (w_name g y)) with (key (x, y)). change (edge_text (w_name g y) (w_name g x)) with (key (y, x)).
      destruct (text_mem (key (x, y)) (List.rev (map key es))) eqn:M1.
      + apply Seen in M1; try assumption. destruct (IH es Inc' C) as (es' & C' & S & A & E). exists es'. split; [exact C'|]. split; [exact S|]. split; [|exact E]. intros e [<-|I]; [left; apply S, M1|apply A, I].
      + destruct (w_directed g) eqn:Di; cbn [negb andb].
        * destruct (IH (es ++ [(x, y)]) Inc') as (es' & C' & S & A & E).
          { destruct C as (C1 & C2 & C3). split; [|split; [|congruence]]. - intros e I. apply in_app_or in I as [I|[<-|[]]]; [apply C1, I|apply Inc; left; reflexivity]. - apply NoDup_app_intro; [exact C2|constructor; [intros []|constructor]|]. intros e I [<-|[]]. apply Seen in I; try assumption. congruence. }
          exists es'. split; [exact C'|]. split; [intros e I; apply S, in_or_app; left; exact I|]. split; [intros e [<-|I]; [left; apply S, in_or_app; right; left; reflexivity|destruct (A e I) as [|[? _]]; [left; assumption|congruence]]|].
          rewrite !map_app, rev_app_distr in E. exact E.
        * destruct (text_mem (key (y, x)) (List.rev (map key es))) eqn:M2.
          { apply (Seen (y, x)) in M2; try assumption. destruct (IH es Inc' C) as (es' & C' & S & A & E). exists es'. split; [exact C'|]. split; [exact S|]. split; [|exact E]. intros e [<-|I]; [right; split; [reflexivity|apply S, M2]|apply A, I]. }
          destruct (IH (es ++ [(x, y)]) Inc') as (es' & C' & S & A & E).
          { destruct C as (C1 & C2 & C3). split; [|split].
            - intros e I. apply in_app_or in I as [I|[<-|[]]]; [apply C1, I|apply Inc; left; reflexivity].
            - apply NoDup_app_intro; [exact C2|constructor; [intros []|constructor]|]. intros e I [<-|[]]. apply Seen in I; try assumption. congruence.
            - intros _ a b I J. apply in_app_or in I as [I|[I|[]]]; apply in_app_or in J as [J|[J|[]]].
              + apply (C3 Di); assumption.
              + injection J as <- <-. apply (Seen (y, x)) in I; try assumption. congruence.
              + injection I as <- <-. apply (Seen (y, x)) in J; try assumption. congruence.
              + congruence. }
          exists es'. split; [exact C'|]. split; [intros e I; apply S, in_or_app; left; exact I|]. split; [intros e [<-|I]; [left; apply S, in_or_app; right; left; reflexivity|apply A, I]|].
          rewrite !map_app, rev_app_distr in E. exact E. Qed.
  Let called (x : N) : text := q (w_name g x).
  Let back (e : N * N) : text * text * option text * text := (called (fst e), called (snd e), option_map q (if weighted then Some (w_weight g e) else None), match option_map q (written_label e) with Some t => t | None => [] end).
  Let through (e : dedge) : dedge := DEdge (q (de_from e)) (q (de_to e)) (option_map q (de_label e)) (option_map q (de_weight e)).
  Lemma called_inj x y : In x (w_nodes g) -> In y (w_nodes g) -> called x = called y -> x = y.
  Proof. intros A B E. apply q_inj in E. destruct P as (_ & _ & _ & I & _). apply I; assumption. Qed.
  Lemma read_nodes : forall l d, NoDup (d ++ l) -> incl (d ++ l) (w_nodes g) -> forall dir,
    foldM (fun g n => r_add_node g (dn_name n)) (map (fun n => DNode (q (dn_name n)) (option_map q (dn_kind n))) (map (fun x => DNode (w_name g x) None) l)) (RGraph dir (map called d) []) = Ok (RGraph dir (map called (d ++ l)) []).
  Proof. induction l as [|x l IH]; intros d Nd Inc dir; cbn [map foldM]; [rewrite app_nil_r; reflexivity|]. unfold r_add_node at 1. cbn [dn_name r_nodes r_directed r_edges]. change (q (w_name g x)) with (called x).
    destruct (text_mem (called x) (map called d)) eqn:M.
    - exfalso. apply text_mem_iff, in_map_iff in M as (y & E & I). assert (y = x) as -> by (apply called_inj; [apply Inc, in_or_app; left; exact I|apply Inc, in_or_app; right; left; reflexivity|exact E]). apply NoDup_remove_2 in Nd. apply Nd, in_or_app. left. exact I.
    - cbn [bind]. replace (map called d ++ [called x]) with (map called (d ++ [x])) by (rewrite map_app; reflexivity). rewrite IH; rewrite <- app_assoc; cbn [app]; auto. Qed.
  Lemma read_edges : forall es d, chosen (d ++ es) -> foldM read_edge (map through (map written es)) (RGraph (w_directed g) (map called (w_nodes g)) (map back d)) = Ok (RGraph (w_directed g) (map called (w_nodes g)) (map back (d ++ es))).
  Proof. destruct P as (_ & _ & Ins & _ & _). induction es as [|[x y] es IH]; intros d C; cbn [map foldM]; [rewrite app_nil_r; reflexivity|].
    destruct C as (C1 & C2 & C3). destruct (Ins x y (C1 _ ltac:(apply in_or_app; right; left; reflexivity))) as [Ix Iy].
    assert (Mem : forall z, In z (w_nodes g) -> text_mem (called z) (map called (w_nodes g)) = true) by (intros z I; apply text_mem_iff, in_map, I).
    assert (Old : forall u v, In u (w_nodes g) -> In v (w_nodes g) -> existsb (joins (called u) (called v)) (map back d) = true -> In (u, v) d).
    { intros u v Iu Iv E. apply existsb_exists in E as (e & I & J). apply in_map_iff in I as ([a b] & <- & I). apply joins_iff in J as [J1 J2]. cbn [back fst snd] in J1, J2. destruct (Ins a b (C1 _ ltac:(apply in_or_app; left; exact I))). apply called_inj in J1; try assumption. apply called_inj in J2; try assumption. subst. exact I. }
    unfold read_edge at 1. cbn [through written de_from de_to de_label de_weight fst snd r_nodes]. change (q (w_name g x)) with (called x). change (q (w_name g y)) with (called y). rewrite (Mem x Ix). cbn [bind r_nodes]. rewrite (Mem y Iy). cbn [bind]. unfold r_add_edge. cbn [r_edges r_directed r_nodes].
    destruct (existsb (joins (called x) (called y)) (map back d)) eqn:O1. { exfalso. apply Old in O1; try assumption. apply NoDup_remove_2 in C2. apply C2, in_or_app. left. exact O1. }
    destruct (negb (w_directed g) && existsb (joins (called y) (called x)) (map back d)) eqn:O2.
    { exfalso. apply andb_true_iff in O2 as [D O2]. apply negb_true_iff in D. apply Old in O2; try assumption. assert (X : x = y) by (apply (C3 D); [apply in_or_app; right; left; reflexivity|apply in_or_app; left; exact O2]). subst y. apply NoDup_remove_2 in C2. apply C2, in_or_app. left. exact O2. }
    cbn [orb bind]. match goal with |- foldM _ _ (RGraph _ _ ?l) = _ => change l with (map back d ++ map back [(x, y)]) end. rewrite <- map_app. rewrite IH; rewrite <- app_assoc; cbn [app]; [reflexivity|]. split; [exact C1|]. split; [exact C2|exact C3]. Qed.
  Lemma round : exists r, read_dot (dot_through q (write_graph weighted g)) = Ok (inl r) /\
    same_graph g called (fun e => match option_map q (written_label e) with Some t => t | None => [] end) (fun e => option_map q (if weighted then Some (w_weight g e) else None)) r.
  Proof. destruct P as (Nn & Ne & Ins & Inj & Und). destruct (write_chosen (w_edges g) [] (fun e I => I)) as (es & C & _ & All & E). { split; [intros e []|]. split; [constructor|]. intros _ x y []. }
    exists (RGraph (w_directed g) (map called (w_nodes g)) (map back es)). split.
    - assert (X : read_graph (w_directed g) (dot_through q (write_graph weighted g)) = Ok (RGraph (w_directed g) (map called (w_nodes g)) (map back es))).
      { unfold read_graph, write_graph. change ([] : list text, [] : list dedge) with (List.rev (map key []), map written []). rewrite E. unfold dot_through. cbn [dot_nodes dot_edges dot_type snd]. pose proof (read_nodes (w_nodes g) [] Nn (fun x I => I) (w_directed g)) as R. cbn [app map] in R. rewrite R. cbn [bind]. apply (read_edges es []). exact C. }
      unfold read_dot. assert (T : dot_type (dot_through q (write_graph weighted g)) = if w_directed g then TDigraph else TGraph) by reflexivity. rewrite T. destruct (w_directed g); rewrite X; reflexivity.
    - destruct C as (C1 & C2 & C3). split; [reflexivity|]. split; [reflexivity|]. cbn [r_edges r_directed]. split.
      + apply nodup_map_in; [|exact C2]. intros [a b] [c d] I J K. unfold back in K. cbn [fst snd] in K. injection K as K1 K2 _ _. destruct (Ins _ _ (C1 _ I)), (Ins _ _ (C1 _ J)). f_equal; apply called_inj; assumption.
      + intros a b wt lb. unfold edge_of. cbn [r_edges r_directed]. split.
        * intros [I|[D I]]; apply in_map_iff in I as ([x y] & K & I); cbn [back fst snd] in K; injection K as <- <- <- <-; apply C1 in I.
          -- exists x, y. auto.
          -- destruct (Und D x y I) as (J & L & W). exists y, x. unfold written_label. rewrite <- L, <- W. auto.
        * intros (x & y & I & -> & -> & -> & ->). destruct (All (x, y) I) as [J|[D J]].
          -- left. apply in_map_iff. exists (x, y). auto.
          -- right. split; [exact D|]. apply in_map_iff. exists (y, x). split; [|exact J]. destruct (Und D x y I) as (_ & L & W). unfold back, written_label, rev. cbn [fst snd]. rewrite L, W. reflexivity. Qed.
End Graph.

(** ** C173 *)

(** The labels and weights read back. *)
Definition label_back {N} (q : text -> text) (weighted : bool) (g : wgraph N) (e : N * N) : text := match w_label g e with [] => if weighted then q (w_weight g e) else [] | t => q t end.
Definition weight_back {N} (q : text -> text) (weighted : bool) (g : wgraph N) (e : N * N) : option text := if weighted then Some (q (w_weight g e)) else None.
(** ** C173 *)
Definition abc (n : Z) : text := if n =? 1 then chars "a" else if n =? 2 then chars "b-c" else if n =? 3 then chars "a-b" else chars "c".
Definition dashed : wgraph Z := WGraph true [1; 2; 3; 4] [(1, 2); (3, 4)] abc (fun _ => chars "x") (fun _ => chars "1").
Lemma dashed_proper : proper dashed.
Proof. split; [repeat constructor; cbn; intuition lia|]. split; [repeat constructor; cbn; intuition congruence|]. split; [|split; [|discriminate]].
  - intros x y [E|[E|[]]]; injection E as <- <-; cbn; tauto.
  - intros x y I J. cbn in I, J. intuition (subst; first [reflexivity|discriminate]). Qed.
(** Two edges whose texts agree: the second is lost. *)
Theorem C173_dashes_refuted : exists (g : wgraph Z), proper g /\ length (w_edges g) = 2%nat /\ forall weighted, exists r, read_dot (dot_through (fun t => t) (write_graph weighted g)) = Ok (inl r) /\ length (r_edges r) = 1%nat.
Proof. exists dashed. split; [exact dashed_proper|]. split; [reflexivity|]. intros [|]; eexists; (split; [vm_compute; reflexivity|reflexivity]). Qed.
Print Assumptions C173_dashes_refuted.
(** An edge without a label comes back labelled with its weight. *)
Definition plain : wgraph Z := WGraph true [1; 4] [(1, 4)] abc (fun _ => []) (fun _ => chars "7").
Theorem C173_labels_refuted : exists (g : wgraph Z) r, proper g /\ w_edges g = [(1, 4)] /\ w_label g (1, 4) = [] /\ read_dot (dot_through (fun t => t) (write_graph true g)) = Ok (inl r) /\ r_edges r = [(w_name g 1, w_name g 4, Some (chars "7"), chars "7")].
Proof. exists plain. eexists. split; [|split; [reflexivity|split; [reflexivity|split; [vm_compute; reflexivity|reflexivity]]]].
  split; [repeat constructor; cbn; intuition lia|]. split; [repeat constructor; cbn; intuition congruence|]. split; [|split; [|discriminate]].
  - intros x y [E|[]]; injection E as <- <-; cbn; tauto.
  - intros x y I J. cbn in I, J. intuition (subst; first [reflexivity|discriminate]). Qed.
Print Assumptions C173_labels_refuted.
(** Names without a dash: the same nodes and edges, and the labels and weights up to the case
    above. *)
Theorem C173_round_partial : forall N (g : wgraph N) weighted q, proper g -> (forall x, In x (w_nodes g) -> one_word no_dash (w_name g x)) -> (forall a b, q a = q b -> a = b) ->
  exists r, read_dot (dot_through q (write_graph weighted g)) = Ok (inl r) /\ same_graph g (fun x => q (w_name g x)) (label_back q weighted g) (weight_back q weighted g) r.
Proof. intros N g weighted q P D Q. destruct (round g weighted q P D Q) as (r & E & S1 & S2 & S3 & S4). exists r. split; [exact E|]. split; [exact S1|]. split; [exact S2|]. split; [exact S3|]. intros a b wt lb. rewrite S4. split; intros (x & y & I & A & B & W & L); exists x, y; (split; [exact I|]); (split; [exact A|]); (split; [exact B|]).
  - split; [rewrite W; unfold weight_back; destruct weighted; reflexivity|rewrite L; unfold label_back; destruct (w_label g (x, y)); [destruct weighted|]; reflexivity].
  - split; [rewrite W; unfold weight_back; destruct weighted; reflexivity|rewrite L; unfold label_back; destruct (w_label g (x, y)); [destruct weighted|]; reflexivity]. Qed.
Print Assumptions C173_round_partial.
(** Whatever the names, a directed edge is written exactly if no earlier edge has its text. *)
Definition edge_key {N} (g : wgraph N) (e : N * N) : text := edge_text (w_name g (fst e)) (w_name g (snd e)).
Theorem C173_directed_exactly : forall N (g : wgraph N) weighted a b, w_directed g = true ->
  (exists lb wt, In (DEdge a b lb wt) (dot_edges (write_graph weighted g))) <->
  exists l1 e l2, w_edges g = l1 ++ e :: l2 /\ a = w_name g (fst e) /\ b = w_name g (snd e) /\ forall e', In e' l1 -> edge_key g e' <> edge_key g e.
Proof. intros N g weighted a b D. unfold write_graph. cbn [dot_edges].
  assert (G : forall l, (forall t, In t (fst (fold_left (write_one weighted g) l ([], []))) <-> exists e, In e l /\ edge_key g e = t) /\
    ((exists lb wt, In (DEdge a b lb wt) (snd (fold_left (write_one weighted g) l ([], [])))) <-> exists l1 e l2, l = l1 ++ e :: l2 /\ a = w_name g (fst e) /\ b = w_name g (snd e) /\ forall e', In e' l1 -> edge_key g e' <> edge_key g e)).
  { induction l as [|x l [IH1 IH2]] using rev_ind.
    - cbn. split; [intros t; split; [intros []|intros (e & [] & _)]|]. split; [intros (lb & wt & [])|intros (l1 & e & l2 & E & _); destruct l1; discriminate].
    - rewrite fold_left_app. cbn [fold_left]. set (s := fold_left (write_one weighted g) l ([], [])) in *. unfold write_one. rewrite D. cbn [negb andb]. change (edge_text (w_name g (fst x)) (w_name g (snd x))) with (edge_key g x).
      assert (Old :
        ((exists l1 e l2, l ++ [x] = l1 ++ e :: l2 /\ a = w_name g (fst e) /\ b = w_name g (snd e) /\ forall e', In e' l1 -> edge_key g e' <> edge_key g e) <->
         (exists l1 e l2, l = l1 ++ e :: l2 /\ a = w_name g (fst e) /\ b = w_name g (snd e) /\ forall e', In e' l1 -> edge_key g e' <> edge_key g e) \/ (a = w_name g (fst x) /\ b = w_name g (snd x) /\ forall e', In e' l -> edge_key g e' <> edge_key g x))).
      { split.
        - intros (l1 & e & l2 & E & A & B & F). destruct l2 as [|y l2] using rev_ind; [apply app_inj_tail in E as [-> ->]; right; auto|]. clear IHl2. left. exists l1, e, l2. rewrite app_comm_cons, app_assoc in E. apply app_inj_tail in E as [-> _]. auto.
        - intros [(l1 & e & l2 & -> & A & B & F)|(A & B & F)]; [exists l1, e, (l2 ++ [x]); rewrite <- app_assoc; cbn [app]; auto|exists l, x, []; auto]. }
      destruct (text_mem (edge_key g x) (fst s)) eqn:M.
      + apply text_mem_iff, IH1 in M as (e0 & I0 & E0). split.
        * intros t. rewrite IH1. split; intros (e & I & E); [exists e; split; [apply in_or_app; left; exact I|exact E]|]. apply in_app_or in I as [I|[<-|[]]]; [exists e; auto|exists e0; split; [exact I0|congruence]].
        * rewrite Old. rewrite IH2. split; [tauto|]. intros [X|(_ & _ & F)]; [exact X|]. exfalso. exact (F e0 I0 E0).
      + assert (Nw : forall e', In e' l -> edge_key g e' <> edge_key g x). { intros e' I E. assert (X : In (edge_key g x) (fst s)) by (apply IH1; eauto). apply text_mem_iff in X. congruence. }
        cbn [fst snd]. split.
        * intros t. cbn [In]. rewrite IH1. split; [intros [<-|(e & I & E)]; [exists x; split; [apply in_or_app; right; left; reflexivity|reflexivity]|exists e; split; [apply in_or_app; left; exact I|exact E]]|]. intros (e & I & E). apply in_app_or in I as [I|[<-|[]]]; [right; eauto|left; exact E].
        * rewrite Old. rewrite <- IH2. split.
          -- intros (lb & wt & I). apply in_app_or in I as [I|[I|[]]]; [left; eauto|right]. injection I as <- <- _ _. auto.
          -- intros [(lb & wt & I)|(-> & -> & _)]; [exists lb, wt; apply in_or_app; left; exact I|]. do 2 eexists. apply in_or_app. right. left. reflexivity. }
  apply (G (w_edges g)). Qed.
Print Assumptions C173_directed_exactly.
(** An undirected triangle with a loop. *)
Definition triangle : wgraph Z := WGraph false [1; 4; 5] [(1, 4); (4, 1); (4, 5); (5, 4); (1, 1); (5, 1); (1, 5)] (fun n => if n =? 5 then chars "d" else abc n) (fun _ => chars "x") (fun _ => chars "2").
Example C173_example : proper triangle /\ (forall x, In x (w_nodes triangle) -> one_word no_dash (w_name triangle x)) /\
  exists r, read_dot (dot_through (fun t => t) (write_graph true triangle)) = Ok (inl r) /\ length (r_edges r) = 4%nat.
Proof. split; [|split; [|eexists; split; [vm_compute; reflexivity|reflexivity]]].
  - split; [repeat constructor; cbn; intuition lia|]. split; [repeat constructor; cbn; intuition congruence|]. split; [|split].
    + intros x y I. cbn in I. cbn. intuition (match goal with H : _ = _ |- _ => injection H as <- <- end; tauto).
    + intros x y I J. cbn in I, J. intuition (subst; first [reflexivity|discriminate]).
    + intros _ x y I. cbn in I. cbn. intuition (match goal with H : _ = _ |- _ => injection H as <- <- end; tauto).
  - intros x I. cbn in I. unfold one_word. intuition (subst; reflexivity). Qed.

(** ** Hypergraphs *)
(** nodes and hyperedges once, links between them and once, names that tell the nodes apart and
    the hyperedges apart. *)
Definition proper_hyper {N M} (h : hgraph N M) : Prop :=
  NoDup (h_nodes h) /\ NoDup (h_hyper h) /\ (forall m, In m (h_hyper h) -> NoDup (h_links h m) /\ incl (h_links h m) (h_nodes h)) /\
  (forall x y, In x (h_nodes h) -> In y (h_nodes h) -> h_name h x = h_name h y -> x = y) /\
  (forall x y, In x (h_hyper h) -> In y (h_hyper h) -> h_hname h x = h_hname h y -> x = y).
(** [r] is [h] with the nodes called [nn] and the hyperedges [mm]: the nodes in order, the
    hyperedges in order with their nodes in order, and for every node its hyperedges. *)
Definition same_hyper {N M} (h : hgraph N M) (nn : N -> text) (mm : M -> text) (r : rhyper) : Prop :=
  map fst (rh_nodes r) = map nn (h_nodes h) /\ rh_edges r = map (fun m => (mm m, map nn (h_links h m))) (h_hyper h) /\
  forall x, In x (h_nodes h) -> exists l, In (nn x, l) (rh_nodes r) /\ NoDup l /\ forall t, In t l <-> exists m, In m (h_hyper h) /\ In x (h_links h m) /\ t = mm m.

Lemma text_eqb_refl t : text_eqb t t = true.
Proof. apply text_eqb_iff. reflexivity. Qed.
Lemma tget_map {X A} (f : X -> text) (v : X -> A) l x : (forall a b, In a l -> In b l -> f a = f b -> a = b) -> In x l -> tget (map (fun y => (f y, v y)) l) (f x) = Some (v x).
Proof. induction l as [|y l IH]; intros J I; [destruct I|]. cbn [map tget]. destruct (text_eqb (f x) (f y)) eqn:E.
  - apply text_eqb_iff in E. rewrite (J x y I (or_introl eq_refl) E). reflexivity.
  - destruct I as [->|I]; [rewrite text_eqb_refl in E; discriminate|]. apply IH; [intros a b Ja Jb; apply J; right; assumption|exact I]. Qed.
Lemma tget_none {X A} (f : X -> text) (v : X -> A) l t : (forall a, In a l -> f a <> t) -> tget (map (fun y => (f y, v y)) l) t = None.
Proof. induction l as [|y l IH]; intros H; [reflexivity|]. cbn [map tget]. destruct (text_eqb t (f y)) eqn:E; [apply text_eqb_iff in E; destruct (H y (or_introl eq_refl) (eq_sym E))|]. apply IH. intros a I. apply H. right. exact I. Qed.
Lemma tupd_map {X A} (f : X -> text) (v w : X -> A) l x u : NoDup l -> (forall a b, In a l -> In b l -> f a = f b -> a = b) -> In x l ->
  (forall y, In y l -> w y = if text_eqb (f x) (f y) then u (v y) else v y) -> tupd (map (fun y => (f y, v y)) l) (f x) u = map (fun y => (f y, w y)) l.
Proof. induction l as [|y l IH]; intros Nd J I W; [destruct I|]. cbn [map tupd]. apply NoDup_cons_iff in Nd as [Ny Nd]. rewrite (W y (or_introl eq_refl)). destruct (text_eqb (f x) (f y)) eqn:E.
  - f_equal. apply text_eqb_iff in E. assert (x = y) as -> by (apply J; [exact I|left; reflexivity|exact E]). apply map_ext_in. intros z Iz. rewrite (W z (or_intror Iz)). destruct (text_eqb (f y) (f z)) eqn:F; [|reflexivity]. apply text_eqb_iff in F. exfalso. apply Ny. rewrite (J y z (or_introl eq_refl) (or_intror Iz) F). exact Iz.
  - f_equal. destruct I as [->|I]; [rewrite text_eqb_refl in E; discriminate|]. apply IH; [exact Nd|intros a b Ja Jb; apply J; right; assumption|exact I|]. intros z Iz. apply W. right. exact Iz. Qed.
Section Hyper.
  Context {N M : Type} (h : hgraph N M) (q : text -> text).
  Context (P : proper_hyper h) (disjoint : forall x m, In x (h_nodes h) -> In m (h_hyper h) -> h_name h x <> h_hname h m).
  Context (q_inj : forall a b, q a = q b -> a = b) (q_node : q (chars "hypernode") = chars "hypernode") (q_edge : q (chars "hyperedge") = chars "hyperedge").
  Let nn (x : N) : text := q (h_name h x).
  Let mm (m : M) : text := q (h_hname h m).
  Lemma nn_inj x y : In x (h_nodes h) -> In y (h_nodes h) -> nn x = nn y -> x = y.
  Proof. destruct P as (_ & _ & _ & I & _). intros A B E. apply q_inj in E. apply I; assumption. Qed.
  Lemma mm_inj x y : In x (h_hyper h) -> In y (h_hyper h) -> mm x = mm y -> x = y.
  Proof. destruct P as (_ & _ & _ & _ & I). intros A B E. apply q_inj in E. apply I; assumption. Qed.
  Let again (n : dnode) : dnode := DNode (q (dn_name n)) (option_map q (dn_kind n)).
  Lemma read_hnodes : forall l d, NoDup (d ++ l) -> incl (d ++ l) (h_nodes h) ->
    foldM read_hnode (map again (map (fun x => DNode (h_name h x) (Some (chars "hypernode"))) l)) (RHyper (map (fun x => (nn x, [])) d) []) = Ok (RHyper (map (fun x => (nn x, [])) (d ++ l)) []).
  Proof. induction l as [|x l IH]; intros d Nd Inc; cbn [map foldM]; [rewrite app_nil_r; reflexivity|]. unfold read_hnode at 1. cbn [again dn_kind dn_name option_map]. rewrite q_node, text_eqb_refl. unfold h_add_node, tmem. cbn [rh_nodes rh_edges]. change (q (h_name h x)) with (nn x).
    rewrite tget_none; [cbn [bind]|].
    - replace (map (fun x => (nn x, [])) d ++ [(nn x, [])]) with (map (fun x => (nn x, [] : list text)) (d ++ [x])) by (rewrite map_app; reflexivity). rewrite IH; rewrite <- app_assoc; cbn [app]; auto.
    - intros y I E. assert (y = x) as -> by (apply nn_inj; [apply Inc, in_or_app; left; exact I|apply Inc, in_or_app; right; left; reflexivity|exact E]). apply NoDup_remove_2 in Nd. apply Nd, in_or_app. left. exact I. Qed.
  Lemma read_hedges ns : forall l d, NoDup (d ++ l) -> incl (d ++ l) (h_hyper h) ->
    foldM read_hnode (map again (map (fun m => DNode (h_hname h m) (Some (chars "hyperedge"))) l)) (RHyper ns (map (fun m => (mm m, [])) d)) = Ok (RHyper ns (map (fun m => (mm m, [])) (d ++ l))).
  Proof. induction l as [|x l IH]; intros d Nd Inc; cbn [map foldM]; [rewrite app_nil_r; reflexivity|]. unfold read_hnode at 1. cbn [again dn_kind dn_name option_map]. rewrite q_edge. change (text_eqb (chars "hypernode") (chars "hyperedge")) with false. rewrite text_eqb_refl. unfold h_add_hyperedge, tmem. cbn [rh_nodes rh_edges]. change (q (h_hname h x)) with (mm x).
    rewrite tget_none; [cbn [bind]|].
    - replace (map (fun m => (mm m, [])) d ++ [(mm x, [])]) with (map (fun m => (mm m, [] : list text)) (d ++ [x])) by (rewrite map_app; reflexivity). rewrite IH; rewrite <- app_assoc; cbn [app]; auto.
    - intros y I E. assert (y = x) as -> by (apply mm_inj; [apply Inc, in_or_app; left; exact I|apply Inc, in_or_app; right; left; reflexivity|exact E]). apply NoDup_remove_2 in Nd. apply Nd, in_or_app. left. exact I. Qed.
  Let ofn (d : list (M * N)) (x : N) : list text := map (fun p => mm (fst p)) (filter (fun p => text_eqb (nn (snd p)) (nn x)) d).
  Let ofm (d : list (M * N)) (m : M) : list text := map (fun p => nn (snd p)) (filter (fun p => text_eqb (mm (fst p)) (mm m)) d).
  Let state (d : list (M * N)) : rhyper := RHyper (map (fun x => (nn x, ofn d x)) (h_nodes h)) (map (fun m => (mm m, ofm d m)) (h_hyper h)).
  Let drawn_link (p : M * N) : dedge := DEdge (mm (fst p)) (nn (snd p)) None None.
  Lemma read_links : forall l d old, NoDup (d ++ l) -> (forall m x, In (m, x) (d ++ l) -> In m (h_hyper h) /\ In x (h_nodes h)) ->
    exists old', foldM read_link (map drawn_link l) (state d, old) = Ok (state (d ++ l), old').
  Proof. destruct P as (Nn & Nm & _). induction l as [|[m x] l IH]; intros d old Nd Ins; cbn [map foldM]; [exists old; rewrite app_nil_r; reflexivity|].
    destruct (Ins m x ltac:(apply in_or_app; right; left; reflexivity)) as [Im Ix].
    assert (T1 : tget (rh_nodes (state d)) (mm m) = None). { apply tget_none. intros y Iy E. apply q_inj in E. exact (disjoint y m Iy Im E). }
    assert (T2 : tget (rh_nodes (state d)) (nn x) = Some (ofn d x)) by (apply tget_map; [exact nn_inj|exact Ix]).
    assert (T3 : tget (rh_edges (state d)) (mm m) = Some (ofm d m)) by (apply tget_map; [exact mm_inj|exact Im]).
    assert (T4 : text_mem (mm m) (ofn d x) = false).
    { destruct (text_mem (mm m) (ofn d x)) eqn:T; [|reflexivity]. exfalso. apply text_mem_iff in T. unfold ofn in T. apply in_map_iff in T as ([m' x'] & E & I). apply filter_In in I as [I F]. cbn [fst snd] in *. apply text_eqb_iff in F. destruct (Ins m' x' ltac:(apply in_or_app; left; exact I)).
      assert (m' = m) as -> by (apply mm_inj; assumption). assert (x' = x) as -> by (apply nn_inj; assumption). apply NoDup_remove_2 in Nd. apply Nd, in_or_app. left. exact I. }
    unfold read_link at 1. cbn [drawn_link de_from de_to fst snd]. unfold tmem. rewrite T1, T2. unfold h_link, tmem. rewrite T2, T4, T3. cbn [bind].
    assert (St : RHyper (tupd (rh_nodes (state d)) (nn x) (fun l => l ++ [mm m])) (tupd (rh_edges (state d)) (mm m) (fun l => l ++ [nn x])) = state (d ++ [(m, x)])).
    { unfold state. cbn [rh_nodes rh_edges]. f_equal.
      - apply tupd_map; [exact Nn|exact nn_inj|exact Ix|]. intros y Iy. unfold ofn. rewrite filter_app, map_app. cbn [filter snd]. destruct (text_eqb (nn x) (nn y)); [reflexivity|cbn [map]; apply app_nil_r].
      - apply tupd_map; [exact Nm|exact mm_inj|exact Im|]. intros y Iy. unfold ofm. rewrite filter_app, map_app. cbn [filter fst]. destruct (text_eqb (mm m) (mm y)); [reflexivity|cbn [map]; apply app_nil_r]. }
    rewrite St. destruct (IH (d ++ [(m, x)]) (Some (nn x, mm m))) as (old' & E); [rewrite <- app_assoc; exact Nd|intros m' x'; rewrite <- app_assoc; apply Ins|]. exists old'. rewrite E, <- app_assoc. reflexivity. Qed.
  Let all_links : list (M * N) := flat_map (fun m => map (fun x => (m, x)) (h_links h m)) (h_hyper h).
  Lemma in_links m x : In (m, x) all_links <-> In m (h_hyper h) /\ In x (h_links h m).
  Proof. unfold all_links. rewrite in_flat_map. split; [intros (m' & I & J); apply in_map_iff in J as (x' & E & J); injection E as <- <-; auto|intros [I J]; exists m; split; [exact I|apply in_map_iff; eauto]]. Qed.
  Lemma links_once : NoDup all_links.
  Proof. destruct P as (_ & Nm & L & _). unfold all_links. clear - Nm L. induction (h_hyper h) as [|m l IH]; [constructor|]. cbn [flat_map]. apply NoDup_cons_iff in Nm as [Ny Nm]. apply NoDup_app_intro.
    - apply nodup_map_in; [congruence|apply L; left; reflexivity].
    - apply IH; [exact Nm|]. intros z I. apply L. right. exact I.
    - intros [a b] I J. apply in_map_iff in I as (x & E & _). injection E as <- <-. apply Ny. apply in_flat_map in J as (m' & I' & J). apply in_map_iff in J as (x' & E & _). injection E as <- _. exact I'. Qed.
  Lemma ofm_all m : In m (h_hyper h) -> ofm all_links m = map nn (h_links h m).
  Proof. intros I. destruct P as (_ & Nm & _ & _ & _). unfold ofm, all_links. assert (J : forall m', In m' (h_hyper h) -> text_eqb (mm m') (mm m) = true -> m' = m) by (intros m' I' E; apply text_eqb_iff in E; apply mm_inj; assumption).
    assert (G : forall m', (text_eqb (mm m') (mm m) = false -> map (fun p : M * N => nn (snd p)) (filter (fun p => text_eqb (mm (fst p)) (mm m)) (map (fun x => (m', x)) (h_links h m'))) = []) /\ (text_eqb (mm m') (mm m) = true -> map (fun p : M * N => nn (snd p)) (filter (fun p => text_eqb (mm (fst p)) (mm m)) (map (fun x => (m', x)) (h_links h m'))) = map nn (h_links h m'))).
    { intros m'. split; intros E; induction (h_links h m') as [|x l IH]; cbn [map filter fst snd]; try reflexivity; rewrite E; [exact IH|cbn [map snd]; f_equal; exact IH]. }
    clear -I Nm J G. induction (h_hyper h) as [|m' l IH]; [destruct I|]. cbn [flat_map]. rewrite filter_app, map_app. apply NoDup_cons_iff in Nm as [Ny Nm]. destruct (text_eqb (mm m') (mm m)) eqn:E.
    - rewrite (proj2 (G m') E). assert (m' = m) as -> by (apply J; [left; reflexivity|exact E]). rewrite <- app_nil_r. f_equal. assert (Z : forall k, In k l -> text_eqb (mm k) (mm m) = false). { intros k Ik. destruct (text_eqb (mm k) (mm m)) eqn:F; [|reflexivity]. exfalso. apply Ny. rewrite <- (J k (or_intror Ik) F). exact Ik. }
      clear -Z G. induction l as [|k l IH]; [reflexivity|]. cbn [flat_map]. rewrite filter_app, map_app, (proj1 (G k) (Z k (or_introl eq_refl))). apply IH. intros z Iz. apply Z. right. exact Iz.
    - rewrite (proj1 (G m') E). cbn [app]. apply IH; [|exact Nm|intros k Ik; apply J; right; exact Ik]. destruct I as [->|I]; [rewrite text_eqb_refl in E; discriminate|exact I]. Qed.
  Lemma hyper_round : exists r, read_hypergraph (dot_through q (write_hypergraph h)) = Ok r /\ same_hyper h nn mm r.
  Proof. pose proof P as (Nn & Nm & L & _). exists (state all_links). split.
    - unfold read_hypergraph, write_hypergraph, dot_through. cbn [dot_nodes dot_edges]. fold again. rewrite map_app. rewrite foldM_app. pose proof (read_hnodes (h_nodes h) [] Nn (fun x I => I)) as R1. cbn [map app] in R1. rewrite R1. cbn [bind].
      pose proof (read_hedges (map (fun x => (nn x, [])) (h_nodes h)) (h_hyper h) [] Nm (fun x I => I)) as R2. cbn [map app] in R2. rewrite R2. cbn [bind].
      match goal with |- context [foldM read_link ?l _] => replace l with (map drawn_link all_links) end.
      + destruct (read_links all_links [] None links_once) as (old & E). { intros m x I. apply in_links in I as [I J]. split; [exact I|apply (proj2 (L m I)), J]. } cbn [app] in E.
        change (RHyper (map (fun x => (nn x, [])) (h_nodes h)) (map (fun m => (mm m, [])) (h_hyper h))) with (state []). rewrite E. reflexivity.
      + unfold all_links. clear. induction (h_hyper h) as [|m l IH]; [reflexivity|]. cbn [flat_map]. rewrite !map_app, IH. f_equal. rewrite !map_map. reflexivity.
    - split; [|split].
      + unfold state. cbn [rh_nodes]. rewrite map_map. reflexivity.
      + unfold state. cbn [rh_edges]. apply map_ext_in. intros m I. rewrite (ofm_all m I). reflexivity.
      + intros x Ix. exists (ofn all_links x). split; [apply in_map_iff; exists x; auto|]. assert (F : forall p, In p (filter (fun p : M * N => text_eqb (nn (snd p)) (nn x)) all_links) <-> In (fst p) (h_hyper h) /\ In x (h_links h (fst p)) /\ snd p = x).
        { intros [m y]. rewrite filter_In, in_links, text_eqb_iff. cbn [fst snd]. split; [|intros (A & B & ->); auto]. intros ((A & B) & E). assert (y = x) as -> by (apply nn_inj; [apply (proj2 (L m A)), B|exact Ix|exact E]). auto. }
        split.
        * unfold ofn. apply nodup_map_in; [|apply NoDup_filter, links_once]. intros [a b] [c d] A B E. apply F in A as (A1 & _ & A3). apply F in B as (B1 & _ & B3). cbn [fst snd] in *. subst. f_equal. apply mm_inj; assumption.
        * intros t. unfold ofn. rewrite in_map_iff. split; [intros (p & <- & I); apply F in I as (A & B & _); eauto|]. intros (m & A & B & ->). exists (m, x). split; [reflexivity|]. apply F. auto. Qed.
End Hyper.

(** ** C174 *)
(** A node and a hyperedge of one name: read_hypergraph takes the hyperedge of the link for the
    node. *)
Definition shared : hgraph Z Z := HGraph [1; 4] [1] (fun _ => [4]) abc abc.
Theorem C174_names_refuted : exists (h : hgraph Z Z), proper_hyper h /\ read_hypergraph (dot_through (fun t => t) (write_hypergraph h)) = Err KeyError.
Proof. exists shared. split; [|vm_compute; reflexivity]. split; [repeat constructor; cbn; intuition lia|]. split; [repeat constructor; cbn; intuition lia|]. split; [|split].
  - intros m _. split; [repeat constructor; cbn; tauto|]. intros x [<-|[]]. cbn. tauto.
  - intros x y I J. cbn in I, J. intuition (subst; first [reflexivity|discriminate]).
  - intros x y I J. cbn in I, J. intuition (subst; first [reflexivity|discriminate]). Qed.
Print Assumptions C174_names_refuted.
Theorem C174_round_partial : forall N M (h : hgraph N M) q, proper_hyper h -> (forall x m, In x (h_nodes h) -> In m (h_hyper h) -> h_name h x <> h_hname h m) ->
  (forall a b, q a = q b -> a = b) -> q (chars "hypernode") = chars "hypernode" -> q (chars "hyperedge") = chars "hyperedge" ->
  exists r, read_hypergraph (dot_through q (write_hypergraph h)) = Ok r /\ same_hyper h (fun x => q (h_name h x)) (fun m => q (h_hname h m)) r.
Proof. intros N M h q P D Q1 Q2 Q3. exact (hyper_round h q P D Q1 Q2 Q3). Qed.
Print Assumptions C174_round_partial.
Definition two_hyper : hgraph Z Z := HGraph [1; 4] [2; 3] (fun m => if m =? 2 then [4; 1] else [4]) abc abc.
Lemma two_proper : proper_hyper two_hyper.
Proof. split; [repeat constructor; cbn; intuition lia|]. split; [repeat constructor; cbn; intuition lia|]. split; [|split].
  - intros m I. cbn in I. intuition subst; cbn; try (repeat constructor; cbn; intuition lia); intros x Hx; cbn in *; tauto.
  - intros x y I J. cbn in I, J. intuition (subst; first [reflexivity|discriminate]).
  - intros x y I J. cbn in I, J. intuition (subst; first [reflexivity|discriminate]). Qed.
(** [read] takes every hypergraph that was written for an ordinary graph. *)
Theorem C174_never : forall N M (h : hgraph N M) q r, read_dot (dot_through q (write_hypergraph h)) = Ok r -> exists g, r = inl g.
Proof. intros N M h q r E. unfold read_dot in E. cbn [dot_through write_hypergraph dot_type] in E. destruct (read_graph true _) as [g|e]; [|discriminate]. cbn [bind] in E. injection E as <-. eauto. Qed.
Print Assumptions C174_never.
Theorem C174_read_refuted : exists (h : hgraph Z Z) g, proper_hyper h /\ read_dot (dot_through (fun t => t) (write_hypergraph h)) = Ok (inl g).
Proof. exists two_hyper. eexists. split; [exact two_proper|vm_compute; reflexivity]. Qed.
Print Assumptions C174_read_refuted.
Example C174_example : proper_hyper two_hyper /\ (forall x m, In x (h_nodes two_hyper) -> In m (h_hyper two_hyper) -> h_name two_hyper x <> h_hname two_hyper m) /\
  exists r, read_hypergraph (dot_through (fun t => t) (write_hypergraph two_hyper)) = Ok r /\ map snd (rh_edges r) = [[chars "c"; chars "a"]; [chars "c"]] /\ map snd (rh_nodes r) = [[chars "b-c"]; [chars "b-c"; chars "a-b"]].
Proof. split; [exact two_proper|]. split; [|eexists; split; [vm_compute; reflexivity|split; reflexivity]]. intros x m I J. cbn in I, J. intuition (subst; discriminate). Qed.
