(** * C75: dot.py *)
From Coq Require Import String Ascii NArith ZArith List Bool Lia Permutation.
From Verif Require Import ModelStr ProofsStr ModelDot.
Import ListNotations.
Local Open Scope list_scope.

(** ** What happens in a run, flattened *)
Record op := MkOp { o_title : string; o_ins : list N; o_out : N; o_more : list N }.
Fixpoint ops (i : item) : list op :=
  match i with
  | Op t ins out more => [MkOp t ins out more]
  | Sub _ body => flat_map ops body
  end.
Definition o_outs (o : op) : list N := o_out o :: o_more o.
(** Objects are created by the primitive that returns them: no output of a primitive is an input of itself or an earlier one. *)
Fixpoint fresh (l : list op) : Prop :=
  match l with
  | [] => True
  | o :: l => (forall a o', In a (o_ins o) -> In o' (o :: l) -> ~ In a (o_outs o')) /\ fresh l
  end.

(** ** Induction on items *)
Lemma item_ind' (P : item -> Prop) : (forall t ins out more, P (Op t ins out more)) -> (forall t body, Forall P body -> P (Sub t body)) -> forall i, P i.
Proof.
  intros H1 H2. fix IH 1. intros [t ins out more|t body]; [apply H1|]. apply H2. induction body as [|j body IHb]; constructor; [apply IH | exact IHb].
Qed.
Lemma graph_ind' (P : graph -> Prop) : (forall t n e s, Forall P s -> P (Graph t n e s)) -> forall g, P g.
Proof. intros H. fix IH 1. intros [t n e s]. apply H. induction s as [|j s IHs]; constructor; [apply IH | exact IHs]. Qed.

(** ** The graph of a run *)
Definition nodes_of (body : list item) : list node := flat_map (fun i => match i with Op t _ out more => [Node t out more] | Sub _ _ => [] end) body.
Definition edges_of (body : list item) : list (N * N) := flat_map (fun i => match i with Op _ ins out _ => map (fun a => (a, out)) ins | Sub _ _ => [] end) body.
Fixpoint graph_of (i : item) : list graph :=
  match i with
  | Op _ _ _ _ => []
  | Sub t body => [Graph t (nodes_of body) (edges_of body) (flat_map graph_of body)]
  end.
Lemma run_spec : forall i t n e s rest, run i (Graph t n e s :: rest) = Graph t (n ++ nodes_of [i]) (e ++ edges_of [i]) (s ++ graph_of i) :: rest.
Proof.
  induction i as [t ins out more|t body IH] using item_ind'; intros t' n e s rest.
  - cbn [run nodes_of edges_of flat_map graph_of]. now rewrite !app_nil_r.
  - assert (B : forall l, Forall (fun i => forall t n e s rest, run i (Graph t n e s :: rest) = Graph t (n ++ nodes_of [i]) (e ++ edges_of [i]) (s ++ graph_of i) :: rest) l ->
              forall t n e s rest, fold_left (fun st j => run j st) l (Graph t n e s :: rest) = Graph t (n ++ nodes_of l) (e ++ edges_of l) (s ++ flat_map graph_of l) :: rest).
    { clear. intros l H. induction H as [|i l Hi H IHl]; intros t n e s rest; [cbn; now rewrite !app_nil_r|]. cbn [fold_left]. rewrite Hi, IHl. cbn [nodes_of edges_of flat_map]. rewrite !app_nil_r, <- !app_assoc. reflexivity. }
    cbn [run]. rewrite (B body IH). cbn [app nodes_of edges_of flat_map graph_of]. now rewrite !app_nil_r.
Qed.
Theorem C75_to_graph title body : to_graph title body = Graph title (nodes_of body) (edges_of body) (flat_map graph_of body).
Proof.
  unfold to_graph. assert (B : forall l t n e s, fold_left (fun st j => run j st) l [Graph t n e s] = [Graph t (n ++ nodes_of l) (e ++ edges_of l) (s ++ flat_map graph_of l)]).
  { induction l as [|i l IHl]; intros t n e s; [cbn; now rewrite !app_nil_r|]. cbn [fold_left]. rewrite run_spec, IHl. cbn [nodes_of edges_of flat_map]. rewrite !app_nil_r, <- !app_assoc. reflexivity. }
  now rewrite B.
Qed.
Print Assumptions C75_to_graph.

(** ** Rendering *)
Fixpoint gnodes (g : graph) : list node := match g with Graph _ n _ s => n ++ flat_map gnodes s end.
Fixpoint gedges (g : graph) : list (N * N) := match g with Graph _ _ e s => flat_map gedges s ++ e end.
Definition nouts (n : node) : list N := n_out n :: n_more n.
Definition gouts (g : graph) : list N := flat_map nouts (gnodes g).
Definition sources (l : list (N * N)) : list N := map fst l.
Section Render.
Variables (args outputs : list (list string * N)) (is_tuple : bool).
Notation render := (render args outputs is_tuple).
Notation is_arg := (is_arg args).
Definition node_line (n : node) : line := LNode (n_out n) (n_title n) (nouts n) (outname outputs is_tuple (n_out n)).

(** Edge lines with the position of the use of each argument. *)
Fixpoint edge_lines (used : list N) (l : list (N * N)) : list line :=
  match l with
  | [] => []
  | (a, b) :: l => if is_arg a then LEdge (FromArg a (count a used)) b :: edge_lines (used ++ [a]) l else LEdge (From a) b :: edge_lines used l
  end.
Lemma edge_lines_app : forall l m used, edge_lines used (l ++ m) = edge_lines used l ++ edge_lines (used ++ filter is_arg (sources l)) m.
Proof.
  induction l as [|[a b] l IH]; intros m used; cbn [app edge_lines sources map filter fst]; [now rewrite app_nil_r|].
  destruct (is_arg a) eqn:E; rewrite IH; cbn [app]; [|reflexivity]. now rewrite <- app_assoc.
Qed.
(** Which outputs are known when the edges of a graph are looked at. *)
Fixpoint covered (all known : list N) (g : graph) : Prop :=
  match g with
  | Graph _ n e s =>
      let known := known ++ flat_map nouts n in
      (fix subs (l : list graph) (known : list N) := match l with [] => True | x :: l => covered all known x /\ subs l (known ++ gouts x) end) s known /\
      (forall a, In a (sources e) -> In a all -> In a (known ++ flat_map gouts s))
  end.
Fixpoint covered_subs (all known : list N) (l : list graph) : Prop :=
  match l with [] => True | x :: l => covered all known x /\ covered_subs all (known ++ gouts x) l end.
Lemma covered_eq all known t n e s : covered all known (Graph t n e s) <->
  covered_subs all (known ++ flat_map nouts n) s /\ (forall a, In a (sources e) -> In a all -> In a ((known ++ flat_map nouts n) ++ flat_map gouts s)).
Proof.
  cbn [covered]. generalize (known ++ flat_map nouts n). intros k.
  enough (H : forall k, (fix subs (l : list graph) (known : list N) := match l with [] => True | x :: l => covered all known x /\ subs l (known ++ gouts x) end) s k <-> covered_subs all k s)
    by (rewrite H; reflexivity).
  induction s as [|x s IH]; intros k'; cbn [covered_subs]; [reflexivity|]. now rewrite IH.
Qed.
(** The text: only the order of lines in between depends on the nesting. *)
Fixpoint glines (depth : Z) (used : list N) (top : bool) (g : graph) : list line :=
  match g with
  | Graph t n e s =>
      (if top then [] else [LBegin t depth]) ++ map node_line n ++
      (fix subs (l : list graph) (used : list N) := match l with [] => [] | x :: l => glines (depth - 1) used false x ++ subs l (used ++ filter is_arg (sources (gedges x))) end) s used ++
      (if top then [] else [LEnd]) ++ edge_lines (used ++ filter is_arg (sources (flat_map gedges s))) e
  end.
Fixpoint glines_subs (depth : Z) (used : list N) (l : list graph) : list line :=
  match l with [] => [] | x :: l => glines depth used false x ++ glines_subs depth (used ++ filter is_arg (sources (gedges x))) l end.
Lemma glines_eq depth used top t n e s : glines depth used top (Graph t n e s) =
  (if top then [] else [LBegin t depth]) ++ map node_line n ++ glines_subs (depth - 1) used s ++ (if top then [] else [LEnd]) ++ edge_lines (used ++ filter is_arg (sources (flat_map gedges s))) e.
Proof.
  cbn [glines]. do 2 f_equal. f_equal.
  generalize used. induction s as [|x s IH]; intros u; cbn [glines_subs]; [reflexivity|]. now rewrite IH.
Qed.
Definition captured (all : list N) (l : list (N * N)) : list N := filter (fun a => negb (is_arg a) && negb (existsb (N.eqb a) all)) (sources l).
Lemma in_existsb a l : existsb (N.eqb a) l = true <-> In a l.
Proof. rewrite existsb_exists. split; [intros (x & H & E); apply N.eqb_eq in E as ->; exact H | intros H; exists a; split; [exact H | apply N.eqb_refl]]. Qed.
Lemma sources_app l m : sources (l ++ m) = sources l ++ sources m.
Proof. apply map_app. Qed.
Lemma render_nodes : forall n s, fold_left (render_node outputs is_tuple) n s =
  St (lines s ++ map node_line n) (op_outs s ++ flat_map nouts n) (captures s) (uses s).
Proof.
  induction n as [|x n IH]; intros s; cbn [fold_left map flat_map]; [rewrite !app_nil_r; destruct s; reflexivity|]. rewrite IH. unfold render_node. cbn [lines op_outs captures uses].
  rewrite <- !app_assoc. reflexivity.
Qed.
Lemma render_edges all : forall e s, incl (op_outs s) all -> (forall a, In a (sources e) -> In a all -> In a (op_outs s)) ->
  fold_left (render_edge args) e s = St (lines s ++ edge_lines (uses s) e) (op_outs s) (captures s ++ captured all e) (uses s ++ filter is_arg (sources e)).
Proof.
  induction e as [|[a b] e IH]; intros s Hi H; cbn [fold_left sources map filter edge_lines captured fst]; [rewrite !app_nil_r; destruct s; reflexivity|].
  assert (X : existsb (N.eqb a) (op_outs s) = existsb (N.eqb a) all).
  { apply eq_true_iff_eq. rewrite !in_existsb. split; [apply Hi | apply H; now left]. }
  assert (O : op_outs (render_edge args s (a, b)) = op_outs s) by (cbn [render_edge]; destruct (is_arg a); reflexivity).
  rewrite IH; [|now rewrite O | intros c Hc; rewrite O; apply H; now right]. rewrite O. unfold render_edge. rewrite X. unfold captured. cbn [sources map filter fst].
  destruct (is_arg a) eqn:E; cbn [lines op_outs captures uses orb negb andb]; rewrite <- !app_assoc; [reflexivity|].
  destruct (existsb (N.eqb a) all); cbn [negb app]; [reflexivity|]. now rewrite <- app_assoc.
Qed.
Lemma render_spec all : forall g top depth s, incl (op_outs s) all -> incl (gouts g) all -> covered all (op_outs s) g ->
  render top depth g s = St (lines s ++ glines depth (uses s) top g) (op_outs s ++ gouts g) (captures s ++ captured all (gedges g)) (uses s ++ filter is_arg (sources (gedges g))).
Proof.
  induction g as [t n e subs IH] using graph_ind'. intros top depth s Hi Hg Hc. apply covered_eq in Hc as [Hc1 Hc2].
  assert (S : forall l, Forall (fun g => forall top depth s, incl (op_outs s) all -> incl (gouts g) all -> covered all (op_outs s) g ->
      render top depth g s = St (lines s ++ glines depth (uses s) top g) (op_outs s ++ gouts g) (captures s ++ captured all (gedges g)) (uses s ++ filter is_arg (sources (gedges g)))) l ->
    forall d s, incl (op_outs s) all -> incl (flat_map gouts l) all -> covered_subs all (op_outs s) l ->
      fold_left (fun s' sub => render false d sub s') l s =
      St (lines s ++ glines_subs d (uses s) l) (op_outs s ++ flat_map gouts l) (captures s ++ captured all (flat_map gedges l)) (uses s ++ filter is_arg (sources (flat_map gedges l)))).
  { clear. intros l H. induction H as [|x l Hx H IHl]; intros d s Hi Hg Hc; [cbn; rewrite !app_nil_r; destruct s; reflexivity|].
    cbn [fold_left flat_map glines_subs]. cbn [covered_subs] in Hc. destruct Hc as [Hc1 Hc2]. cbn [flat_map] in Hg. apply incl_app_inv in Hg as [Hg1 Hg2].
    rewrite Hx by assumption. rewrite IHl; cbn [lines op_outs captures uses]; [|now apply incl_app | exact Hg2 | exact Hc2].
    unfold captured. rewrite !sources_app, !filter_app, <- !app_assoc. reflexivity. }
  cbn [ModelDot.render]. set (s0 := if top then s else add_line s (LBegin t depth)).
  assert (E0 : op_outs s0 = op_outs s /\ captures s0 = captures s /\ uses s0 = uses s /\ lines s0 = lines s ++ (if top then [] else [LBegin t depth])).
  { unfold s0. destruct top; [rewrite app_nil_r|]; auto. }
  destruct E0 as (E1 & E2 & E3 & E4). rewrite render_nodes, E1, E2, E3, E4.
  assert (GO : gouts (Graph t n e subs) = flat_map nouts n ++ flat_map gouts subs).
  { unfold gouts. cbn [gnodes]. rewrite flat_map_app. f_equal. clear. induction subs as [|x l IHl]; [reflexivity|]. cbn [flat_map]. rewrite flat_map_app, IHl. reflexivity. }
  rewrite GO in Hg. apply incl_app_inv in Hg as [Hg1 Hg2].
  rewrite (S subs IH); cbn [lines op_outs captures uses]; [|now apply incl_app | exact Hg2 | exact Hc1].
  match goal with |- fold_left _ e (if top then ?s1 else ?s2) = _ => set (s1' := s1) end.
  assert (E5 : (if top then s1' else add_line s1' LEnd) = St (lines s1' ++ (if top then [] else [LEnd])) (op_outs s1') (captures s1') (uses s1')) by (clearbody s1'; destruct s1', top; cbn; rewrite ?app_nil_r; reflexivity).
  rewrite E5. unfold s1'. clear s1' E5. cbn [lines op_outs captures uses]. rewrite (render_edges all); cbn [lines op_outs captures uses].
  - rewrite GO, glines_eq. cbn [gedges]. unfold captured. rewrite !sources_app, !filter_app, <- !app_assoc. reflexivity.
  - apply incl_app; [now apply incl_app | exact Hg2].
  - exact Hc2.
Qed.
End Render.

(** ** Runs are covered *)
Fixpoint ok (all known : list N) (l : list op) : Prop :=
  match l with [] => True | o :: l => (forall a, In a (o_ins o) -> In a all -> In a known) /\ ok all (known ++ o_outs o) l end.
Lemma ok_app all : forall l m known, ok all known (l ++ m) <-> ok all known l /\ ok all (known ++ flat_map o_outs l) m.
Proof.
  induction l as [|o l IH]; intros m known; cbn [app ok flat_map]; [rewrite app_nil_r; tauto|]. rewrite IH, <- app_assoc. tauto.
Qed.
Lemma fresh_ok all : forall l known, fresh l -> (forall a, In a all -> In a known \/ In a (flat_map o_outs l)) -> ok all known l.
Proof.
  induction l as [|o l IH]; intros known H Ha; cbn [ok]; [exact I|]. destruct H as [H1 H2]. split.
  - intros a Hin Hall. destruct (Ha a Hall) as [X|X]; [exact X|]. exfalso. apply in_flat_map in X as (o' & X1 & X2). now apply (H1 a o').
  - apply IH; [exact H2|]. intros a Hall. destruct (Ha a Hall) as [X|X]; [left; apply in_or_app; now left|]. cbn [flat_map] in X. apply in_app_or in X as [X|X]; [left; apply in_or_app; now right | now right].
Qed.
Lemma gouts_ops : forall i, Permutation (flat_map nouts (nodes_of [i]) ++ flat_map gouts (graph_of i)) (flat_map o_outs (ops i)).
Proof.
  induction i as [t ins out more|t body IH] using item_ind'.
  - cbn. rewrite !app_nil_r. reflexivity.
  - cbn [nodes_of flat_map app graph_of ops]. rewrite app_nil_r. unfold gouts. cbn [gnodes]. rewrite flat_map_app.
    assert (X : flat_map nouts (flat_map gnodes (flat_map graph_of body)) = flat_map gouts (flat_map graph_of body)).
    { generalize (flat_map graph_of body). intros l. induction l as [|x l IHl]; [reflexivity|]. cbn [flat_map]. rewrite flat_map_app, IHl. reflexivity. }
    rewrite X. clear X. induction IH as [|i l Hi H IHl]; [reflexivity|]. cbn [nodes_of flat_map]. fold (nodes_of l). rewrite !flat_map_app. cbn [nodes_of flat_map] in Hi. rewrite app_nil_r in Hi.
    rewrite <- Hi, <- IHl. rewrite <- !app_assoc. apply Permutation_app_head. rewrite !app_assoc. apply Permutation_app_tail. apply Permutation_app_comm.
Qed.
Lemma gouts_items body : Permutation (flat_map nouts (nodes_of body) ++ flat_map gouts (flat_map graph_of body)) (flat_map o_outs (flat_map ops body)).
Proof.
  pose proof (gouts_ops (Sub "" body)) as H. cbn [nodes_of flat_map app graph_of ops] in H. rewrite app_nil_r in H. unfold gouts in H at 1. cbn [gnodes] in H. rewrite flat_map_app in H. rewrite <- H.
  apply Permutation_app_head. clear. generalize (flat_map graph_of body). intros l. induction l as [|x l IHl]; [reflexivity|]. cbn [flat_map]. rewrite flat_map_app, <- IHl. reflexivity.
Qed.
Lemma covered_item all : forall i K known, ok all K (ops i) -> incl K known -> incl (flat_map nouts (nodes_of [i])) known ->
  covered_subs all known (graph_of i) /\ (forall a, In a (sources (edges_of [i])) -> In a all -> In a known).
Proof.
  induction i as [t ins out more|t body IH] using item_ind'; intros K known Hok HK Hn.
  - split; [exact I|]. cbn [edges_of flat_map]. rewrite app_nil_r. unfold sources. rewrite map_map. cbn [fst]. rewrite map_id. intros a Ha Hall. apply HK. destruct Hok as [H _]. now apply H.
  - split; [|intros a []]. cbn [graph_of covered_subs]. split; [|exact I]. apply covered_eq.
    assert (B : forall l, Forall (fun i => forall K known, ok all K (ops i) -> incl K known -> incl (flat_map nouts (nodes_of [i])) known ->
        covered_subs all known (graph_of i) /\ (forall a, In a (sources (edges_of [i])) -> In a all -> In a known)) l ->
      forall K known, ok all K (flat_map ops l) -> incl K known -> incl (flat_map nouts (nodes_of l)) known ->
        covered_subs all known (flat_map graph_of l) /\ (forall a, In a (sources (edges_of l)) -> In a all -> In a (known ++ flat_map gouts (flat_map graph_of l)))).
    { clear. intros l H. induction H as [|i l Hi H IHl]; intros K known Hok HK Hn; [split; [exact I | intros a []]|].
      cbn [flat_map] in Hok. apply ok_app in Hok as [Hok1 Hok2].
      assert (N1 : incl (flat_map nouts (nodes_of [i])) known /\ incl (flat_map nouts (nodes_of l)) known).
      { cbn [nodes_of flat_map] in Hn. fold (nodes_of l) in Hn. rewrite flat_map_app in Hn. apply incl_app_inv in Hn. cbn [nodes_of flat_map]. rewrite app_nil_r. exact Hn. }
      destruct N1 as [N1 N2]. destruct (Hi K known Hok1 HK N1) as [C1 C2].
      assert (K2 : incl (K ++ flat_map o_outs (ops i)) (known ++ flat_map gouts (graph_of i))).
      { intros a Ha. apply in_app_or in Ha as [Ha|Ha]; [apply in_or_app; left; auto|]. apply (Permutation_in _ (Permutation_sym (gouts_ops i))) in Ha.
        apply in_app_or in Ha as [Ha|Ha]; apply in_or_app; [left; auto | now right]. }
      destruct (IHl _ (known ++ flat_map gouts (graph_of i)) Hok2 K2) as [D1 D2]; [intros a Ha; apply in_or_app; left; auto|].
      assert (CS : forall k x y, covered_subs all k (x ++ y) <-> covered_subs all k x /\ covered_subs all (k ++ flat_map gouts x) y).
      { clear. intros k x y. revert k. induction x as [|g x IHx]; intros k; cbn [app covered_subs flat_map]; [rewrite app_nil_r; tauto|]. rewrite IHx, <- app_assoc. tauto. }
      cbn [flat_map]. split; [apply CS; auto|]. rewrite flat_map_app. intros a Ha Hall. cbn [edges_of flat_map] in Ha. fold (edges_of l) in Ha. rewrite sources_app in Ha. apply in_app_or in Ha as [Ha|Ha].
      + apply in_or_app. left. apply C2; [cbn [edges_of flat_map]; now rewrite app_nil_r | exact Hall].
      + specialize (D2 a Ha Hall). now rewrite <- app_assoc in D2. }
    destruct (B body IH K (known ++ flat_map nouts (nodes_of body)) Hok) as [D1 D2]; [intros a Ha; apply in_or_app; left; auto | intros a Ha; apply in_or_app; now right|]. auto.
Qed.
Lemma covered_top all t body : ok all [] (flat_map ops body) -> covered all [] (Graph t (nodes_of body) (edges_of body) (flat_map graph_of body)).
Proof.
  intros H. destruct (covered_item all (Sub t body) [] [] H) as [C _]; [intros a [] | intros a []|]. cbn [graph_of covered_subs] in C. tauto.
Qed.

(** ** The lines *)
Definition is_node_line (l : line) : bool := match l with LNode _ _ _ _ => true | _ => false end.
Definition is_edge_line (l : line) : bool := match l with LEdge _ _ => true | _ => false end.
Section Lines.
Variables (args outputs : list (list string * N)) (is_tuple : bool).
Notation glines := (glines args outputs is_tuple).
Notation glines_subs := (glines_subs args outputs is_tuple).
Notation edge_lines := (edge_lines args).
Notation is_arg := (is_arg args).
Notation node_line := (node_line outputs is_tuple).
Lemma filter_none {A} (f : A -> bool) l : Forall (fun x => f x = false) l -> filter f l = [].
Proof. induction 1 as [|x l H F IH]; [reflexivity|]. cbn [filter]. now rewrite H. Qed.
Lemma filter_every {A} (f : A -> bool) l : Forall (fun x => f x = true) l -> filter f l = l.
Proof. induction 1 as [|x l H F IH]; [reflexivity|]. cbn [filter]. now rewrite H, IH. Qed.
Lemma edge_lines_edges : forall e u, Forall (fun l => exists s b, l = LEdge s b) (edge_lines u e).
Proof. induction e as [|[a b] e IH]; intros u; cbn [Properties31.edge_lines]; [constructor|]. destruct (is_arg a); constructor; eauto. Qed.
Lemma glines_nodes : forall g d u top, filter is_node_line (glines d u top g) = map node_line (gnodes g).
Proof.
  induction g as [t n e s IH] using graph_ind'. intros d u top. rewrite glines_eq. rewrite !filter_app.
  replace (filter is_node_line (if top then [] else [LBegin t d])) with (@nil line) by (destruct top; reflexivity).
  replace (filter is_node_line (if top then [] else [LEnd])) with (@nil line) by (destruct top; reflexivity).
  rewrite (filter_every _ (map node_line n)) by (apply Forall_forall; intros x Hx; apply in_map_iff in Hx as (y & <- & _); reflexivity).
  rewrite (filter_none _ (edge_lines _ e)) by (eapply Forall_impl; [|apply edge_lines_edges]; intros l (x & y & ->); reflexivity).
  cbn [app gnodes]. rewrite app_nil_r, map_app. f_equal.
  clear n e. revert u. induction IH as [|x l Hx H IHl]; intros u; [reflexivity|]. cbn [Properties31.glines_subs flat_map]. rewrite filter_app, Hx, IHl, map_app. reflexivity.
Qed.
Lemma glines_edges : forall g d u top, filter is_edge_line (glines d u top g) = edge_lines u (gedges g).
Proof.
  induction g as [t n e s IH] using graph_ind'. intros d u top. rewrite glines_eq. rewrite !filter_app.
  replace (filter is_edge_line (if top then [] else [LBegin t d])) with (@nil line) by (destruct top; reflexivity).
  replace (filter is_edge_line (if top then [] else [LEnd])) with (@nil line) by (destruct top; reflexivity).
  rewrite (filter_none _ (map node_line n)) by (apply Forall_forall; intros x Hx; apply in_map_iff in Hx as (y & <- & _); reflexivity).
  rewrite (filter_every _ (edge_lines _ e)) by (eapply Forall_impl; [|apply edge_lines_edges]; intros l (x & y & ->); reflexivity).
  cbn [app gedges]. rewrite edge_lines_app. f_equal.
  clear n e. revert u. induction IH as [|x l Hx H IHl]; intros u; [reflexivity|]. cbn [Properties31.glines_subs flat_map]. rewrite filter_app, Hx, IHl, edge_lines_app. reflexivity.
Qed.
End Lines.

(** Nodes and edges of the graph are those of the run. *)
Definition op_node (o : op) : node := Node (o_title o) (o_out o) (o_more o).
Definition op_edges (o : op) : list (N * N) := map (fun a => (a, o_out o)) (o_ins o).
Lemma gnodes_ops : forall i, Permutation (nodes_of [i] ++ flat_map gnodes (graph_of i)) (map op_node (ops i)).
Proof.
  induction i as [t ins out more|t body IH] using item_ind'; [reflexivity|]. cbn [nodes_of flat_map app graph_of ops gnodes]. rewrite app_nil_r.
  induction IH as [|i l Hi H IHl]; [reflexivity|]. cbn [nodes_of flat_map]. fold (nodes_of l). rewrite !flat_map_app, map_app. cbn [nodes_of flat_map] in Hi. rewrite app_nil_r in Hi.
  rewrite <- Hi, <- IHl. rewrite <- !app_assoc. apply Permutation_app_head. rewrite !app_assoc. apply Permutation_app_tail. apply Permutation_app_comm.
Qed.
Lemma gedges_ops : forall i, Permutation (flat_map gedges (graph_of i) ++ edges_of [i]) (flat_map op_edges (ops i)).
Proof.
  induction i as [t ins out more|t body IH] using item_ind'; [reflexivity|]. cbn [edges_of flat_map app graph_of ops gedges]. rewrite !app_nil_r.
  induction IH as [|i l Hi H IHl]; [reflexivity|]. cbn [edges_of flat_map]. fold (edges_of l). rewrite !flat_map_app. cbn [edges_of flat_map] in Hi. rewrite app_nil_r in Hi.
  rewrite <- Hi, <- IHl. rewrite <- !app_assoc. apply Permutation_app_head. rewrite !app_assoc. apply Permutation_app_tail. apply Permutation_app_comm.
Qed.
Section Main.
Variables (args outputs : list (list string * N)) (is_tuple : bool) (title : string) (body : list item).
Notation file := (graph_to_dot args outputs is_tuple (to_graph title body)).
Notation run_ops := (flat_map ops body).
Definition the_graph := Graph title (nodes_of body) (edges_of body) (flat_map graph_of body).
Definition all_outs := flat_map o_outs run_ops.
Lemma file_eq : fresh run_ops -> exists s, uses s = filter (is_arg args) (sources (gedges the_graph)) /\
  file = glines args outputs is_tuple (max_depth the_graph) [] true the_graph ++ arg_lines args s ++ map LCapture (captured args all_outs (gedges the_graph)).
Proof.
  intros F. unfold graph_to_dot. rewrite C75_to_graph. fold the_graph. rewrite (render_spec args outputs is_tuple all_outs); cbn [lines op_outs captures uses app].
  - eexists. split; [|reflexivity]. reflexivity.
  - intros a [].
  - intros a Ha. unfold all_outs. apply (Permutation_in _ (gouts_items body)). unfold gouts, the_graph in Ha. cbn [gnodes] in Ha. rewrite flat_map_app in Ha.
    apply in_app_or in Ha as [Ha|Ha]; apply in_or_app; [now left|right]. apply in_flat_map in Ha as (x & H1 & H2). apply in_flat_map in H1 as (g & H1 & H3). apply in_flat_map. exists g. split; [exact H1|]. apply in_flat_map. eauto.
  - apply covered_top. apply fresh_ok; [exact F|]. intros a Ha. now right.
Qed.
Lemma the_nodes : Permutation (gnodes the_graph) (map op_node run_ops).
Proof. pose proof (gnodes_ops (Sub title body)) as H. cbn [nodes_of flat_map app graph_of ops] in H. now rewrite app_nil_r in H. Qed.
Lemma the_edges : Permutation (gedges the_graph) (flat_map op_edges run_ops).
Proof. pose proof (gedges_ops (Sub title body)) as H. cbn [edges_of flat_map app graph_of ops] in H. now rewrite !app_nil_r in H. Qed.
Lemma arg_lines_filter s f : (forall a i l, f (LArg a i l) = false) -> filter f (arg_lines args s) = [].
Proof.
  intros H. apply filter_none. apply Forall_forall. intros x Hx. unfold arg_lines in Hx. apply in_flat_map in Hx as (p & _ & Hx). apply in_map_iff in Hx as (i & <- & _). apply H.
Qed.
Lemma capture_filter l f : (forall a, f (LCapture a) = false) -> filter f (map LCapture l) = [].
Proof. intros H. apply filter_none. apply Forall_forall. intros x Hx. apply in_map_iff in Hx as (i & <- & _). apply H. Qed.

(** Every primitive of the run has one node with its title and outputs; it is marked as an output of the function iff its first output
    is among the values returned. *)
Theorem C75_nodes : fresh run_ops ->
  Permutation (filter is_node_line file) (map (fun o => LNode (o_out o) (o_title o) (o_outs o) (outname outputs is_tuple (o_out o))) run_ops) /\
  forall a, outname outputs is_tuple a <> None <-> In a (map snd outputs).
Proof.
  intros F. destruct (file_eq F) as (s & _ & ->). split.
  - rewrite !filter_app, glines_nodes, arg_lines_filter, capture_filter, !app_nil_r by reflexivity. rewrite the_nodes, map_map. reflexivity.
  - intros a. unfold outname. destruct (find (fun p => N.eqb a (snd p)) (rev outputs)) as [p|] eqn:E; cbn [option_map].
    + split; [|discriminate]. intros _. apply find_some in E as [E1 E2]. apply N.eqb_eq in E2 as ->. apply in_map. now apply in_rev.
    + split; [congruence|]. intros H. exfalso. apply in_map_iff in H as (p & <- & H). apply in_rev in H. apply (find_none _ _ E) in H. now rewrite N.eqb_refl in H.
Qed.
(** Every input of every primitive has one edge to the node of the primitive; edges from arguments have their own source, numbered in
    the order of the file. *)
Definition source_id (s : source) : N := match s with FromArg a _ => a | From a => a end.
Definition edge_of_line (l : line) : list (N * N) := match l with LEdge s b => [(source_id s, b)] | _ => [] end.
Definition uses_of (a : N) (l : list line) : list nat := flat_map (fun l => match l with LEdge (FromArg b i) _ => if N.eqb a b then [i] else [] | _ => [] end) l.
Lemma edge_lines_pairs : forall e u, flat_map edge_of_line (edge_lines args u e) = e.
Proof. induction e as [|[a b] e IH]; intros u; [reflexivity|]. cbn [edge_lines]. destruct (is_arg args a); cbn [flat_map edge_of_line source_id app]; now rewrite IH. Qed.
Lemma edge_lines_uses a : In a (map snd args) -> forall e u, uses_of a (edge_lines args u e) = seq (count a u) (count a (sources e)).
Proof.
  intros Ha. assert (X : is_arg args a = true) by (unfold is_arg; now apply in_existsb).
  induction e as [|[b c] e IH]; intros u; [reflexivity|]. cbn [edge_lines]. destruct (is_arg args b) eqn:E; cbn [uses_of flat_map]; fold (uses_of a); unfold count in *; cbn [sources map filter fst].
  - destruct (N.eqb_spec a b) as [->|N].
    + cbn [List.length seq app]. f_equal. unfold uses_of in IH. rewrite IH. rewrite filter_app. cbn [filter]. rewrite N.eqb_refl, app_length. cbn [List.length]. f_equal; lia.
    + cbn [app]. unfold uses_of in IH. rewrite IH. rewrite filter_app. cbn [filter]. destruct (N.eqb_spec a b); [contradiction|]. now rewrite app_nil_r.
  - destruct (N.eqb_spec a b) as [->|N]; [congruence|]. cbn [app]. unfold uses_of in IH. apply IH.
Qed.
Lemma flat_map_filter {A B} (f : A -> list B) (p : A -> bool) l : (forall x, p x = false -> f x = []) -> flat_map f l = flat_map f (filter p l).
Proof. intros H. induction l as [|x l IH]; [reflexivity|]. cbn [flat_map filter]. destruct (p x) eqn:E; [cbn [flat_map]; now rewrite IH | now rewrite (H x E), IH]. Qed.
Lemma file_edges : fresh run_ops -> filter is_edge_line file = edge_lines args [] (gedges the_graph).
Proof. intros F. destruct (file_eq F) as (s & _ & ->). rewrite !filter_app, glines_edges, arg_lines_filter, capture_filter, !app_nil_r by reflexivity. reflexivity. Qed.
Theorem C75_edges : fresh run_ops ->
  Permutation (flat_map edge_of_line file) (flat_map op_edges run_ops) /\
  (forall a i b, In (LEdge (FromArg a i) b) file -> In a (map snd args)) /\ (forall a b, In (LEdge (From a) b) file -> ~ In a (map snd args)) /\
  forall a, In a (map snd args) -> uses_of a file = seq 0 (count a (sources (flat_map op_edges run_ops))).
Proof.
  intros F. pose proof (file_edges F) as E.
  assert (S : forall s b, In (LEdge s b) file <-> In (LEdge s b) (edge_lines args [] (gedges the_graph))).
  { intros s b. rewrite <- E, filter_In. cbn. tauto. }
  assert (G : forall e u s b, In (LEdge s b) (edge_lines args u e) -> match s with FromArg a _ => In a (map snd args) | From a => ~ In a (map snd args) end).
  { induction e as [|[x y] e IH]; intros u s b H; [destruct H|]. cbn [edge_lines] in H. destruct (is_arg args x) eqn:X; destruct H as [H|H]; try (eapply IH; exact H); injection H as <- _.
    - unfold is_arg in X. now apply in_existsb in X.
    - intros Z. unfold is_arg in X. apply in_existsb in Z. congruence. }
  split; [|split; [|split]].
  - rewrite (flat_map_filter _ is_edge_line) by (intros []; cbn; congruence). rewrite E, edge_lines_pairs. apply the_edges.
  - intros a i b H. apply S, G in H. exact H.
  - intros a b H. apply S, G in H. exact H.
  - intros a Ha. unfold uses_of at 1. rewrite (flat_map_filter _ is_edge_line) by (intros []; cbn; congruence). rewrite E. pose proof (edge_lines_uses a Ha (gedges the_graph) []) as U. unfold uses_of in U. rewrite U. f_equal.
    unfold count. apply Permutation_length. pose proof (Permutation_map fst the_edges) as P. fold (sources (gedges the_graph)) in P. unfold sources in *.
    clear - P. induction P as [|x l l' P IH|x y l|l l' l'' P1 IH1 P2 IH2]; cbn [filter]; [constructor | destruct (N.eqb a x); [now constructor | exact IH] | | now rewrite IH1].
    destruct (N.eqb a x), (N.eqb a y); try reflexivity. constructor.
Qed.
(** The captured values are exactly the inputs of primitives that are neither arguments nor outputs of primitives. *)
Theorem C75_captures a : fresh run_ops ->
  (In (LCapture a) file <-> (exists o, In o run_ops /\ In a (o_ins o)) /\ ~ In a (map snd args) /\ forall o, In o run_ops -> ~ In a (o_outs o)).
Proof.
  intros F. destruct (file_eq F) as (s & _ & ->). 
  assert (L : In (LCapture a) (glines args outputs is_tuple (max_depth the_graph) [] true the_graph ++ arg_lines args s ++ map LCapture (captured args all_outs (gedges the_graph))) <-> In a (captured args all_outs (gedges the_graph))).
  { rewrite !in_app_iff. split.
    - intros [H|[H|H]].
      + exfalso. revert H. generalize (max_depth the_graph). generalize (@nil N) true the_graph. clear. intros u top g d. revert d u top. induction g as [t n e s IH] using graph_ind'. intros d u top H. rewrite glines_eq in H.
        rewrite !in_app_iff in H. destruct H as [H|[H|[H|[H|H]]]].
        * destruct top; [destruct H | destruct H as [H|[]]; discriminate H].
        * apply in_map_iff in H as (x & H & _). discriminate H.
        * clear n e. revert u H. generalize (d - 1)%Z. intros d' u H. revert u H. induction IH as [|x l Hx HF IHl]; intros u H; [destruct H|]. cbn [glines_subs] in H. apply in_app_or in H as [H|H]; [now apply Hx in H | now apply IHl in H].
        * destruct top; [destruct H | destruct H as [H|[]]; discriminate H].
        * pose proof (edge_lines_edges args e (u ++ filter (is_arg args) (sources (flat_map gedges s)))) as Z. rewrite Forall_forall in Z. apply Z in H as (x & y & H). discriminate H.
      + unfold arg_lines in H. apply in_flat_map in H as (p & _ & H). apply in_map_iff in H as (i & H & _). discriminate H.
      + apply in_map_iff in H as (x & H & Hx). injection H as ->. exact Hx.
    - intros H. right. right. now apply in_map. }
  rewrite L. unfold captured. rewrite filter_In, andb_true_iff, !negb_true_iff. unfold is_arg.
  assert (Q : In a (sources (gedges the_graph)) <-> exists o, In o run_ops /\ In a (o_ins o)).
  { unfold sources. rewrite in_map_iff. split.
    - intros ([x y] & <- & H). apply (Permutation_in _ the_edges) in H. apply in_flat_map in H as (o & H1 & H2). exists o. split; [exact H1|]. unfold op_edges in H2. apply in_map_iff in H2 as (z & H2 & H3). injection H2 as <- _. exact H3.
    - intros (o & H1 & H2). exists (a, o_out o). split; [reflexivity|]. apply (Permutation_in _ (Permutation_sym the_edges)). apply in_flat_map. exists o. split; [exact H1|]. unfold op_edges. apply in_map_iff. eauto. }
  rewrite Q. assert (X : forall l, existsb (N.eqb a) l = false <-> ~ In a l) by (intros l; rewrite <- in_existsb; destruct (existsb (N.eqb a) l); split; congruence).
  rewrite !X. unfold all_outs. rewrite in_flat_map. split; intros (H1 & H2 & H3); split; auto; split; auto.
  - intros o Ho Hin. apply H3. eauto.
  - intros (o & Ho & Hin). now apply (H3 o).
Qed.
(** If primitives have one output, both ends of every edge are declared in the file. *)
Theorem C75_declared : fresh run_ops -> (forall o, In o run_ops -> o_more o = []) -> forall s b, In (LEdge s b) file ->
  (exists t outs nm, In (LNode b t outs nm) file) /\
  match s with
  | FromArg a i => exists l, In (LArg a i l) file
  | From a => (exists t outs nm, In (LNode a t outs nm) file) \/ In (LCapture a) file
  end.
Proof.
  intros F M s b H. destruct (C75_nodes F) as [PN _]. destruct (C75_edges F) as (PE & EA & EF & EU).
  assert (ND : forall o, In o run_ops -> exists t outs nm, In (LNode (o_out o) t outs nm) file).
  { intros o Ho. exists (o_title o), (o_outs o), (outname outputs is_tuple (o_out o)). apply (in_map (fun o => LNode (o_out o) (o_title o) (o_outs o) (outname outputs is_tuple (o_out o)))) in Ho.
    apply (Permutation_in _ (Permutation_sym PN)) in Ho. now apply filter_In in Ho. }
  assert (HE : In (source_id s, b) (flat_map op_edges run_ops)).
  { apply (Permutation_in _ PE). apply in_flat_map. exists (LEdge s b). split; [exact H | now left]. }
  apply in_flat_map in HE as (o & Ho & HE). unfold op_edges in HE. apply in_map_iff in HE as (x & HE & Hx). injection HE as -> <-.
  split; [now apply ND|]. destruct s as [a i|a]; cbn [source_id] in Hx.
  - pose proof (EA a i _ H) as Ha. specialize (EU a Ha).
    assert (Hi : In i (uses_of a file)) by (unfold uses_of; apply in_flat_map; exists (LEdge (FromArg a i) (o_out o)); split; [exact H|]; rewrite N.eqb_refl; now left).
    destruct (file_eq F) as (st & Hu & Hf). apply in_map_iff in Ha as (p & <- & Hp). exists (arg_label (fst p) i). rewrite Hf.
    apply in_or_app. right. apply in_or_app. left. unfold arg_lines. apply in_flat_map. exists p. split; [exact Hp|]. apply in_map_iff. exists i. split; [reflexivity|].
    rewrite EU in Hi. rewrite Hu. replace (count (snd p) (filter (is_arg args) (sources (gedges the_graph)))) with (count (snd p) (sources (flat_map op_edges run_ops))); [exact Hi|].
    assert (X : is_arg args (snd p) = true) by (unfold is_arg; apply in_existsb; now apply in_map).
    transitivity (count (snd p) (sources (gedges the_graph))).
    + unfold count. apply Permutation_length. pose proof (Permutation_map fst (Permutation_sym the_edges)) as P. unfold sources.
      clear - P. induction P as [|x l l' P IH|x y l|l l' l'' P1 IH1 P2 IH2]; cbn [filter]; [constructor | destruct (N.eqb (snd p) x); [now constructor | exact IH] | | now rewrite IH1].
      destruct (N.eqb (snd p) x), (N.eqb (snd p) y); try reflexivity. constructor.
    + unfold count. clear - X. induction (sources (gedges the_graph)) as [|x l IH]; [reflexivity|]. cbn [filter]. destruct (N.eqb_spec (snd p) x) as [E|E].
      * rewrite <- E, X. cbn [filter]. rewrite N.eqb_refl. cbn [List.length]. now rewrite IH.
      * destruct (is_arg args x); [cbn [filter]; destruct (N.eqb_spec (snd p) x); [contradiction|] |]; exact IH.
  - pose proof (EF a _ H) as Ha. destruct (in_dec N.eq_dec a (flat_map o_outs run_ops)) as [i|i].
    + left. apply in_flat_map in i as (o' & H1 & H2). unfold o_outs in H2. rewrite (M o' H1) in H2. destruct H2 as [<-|[]]. now apply ND.
    + right. apply C75_captures; [exact F|]. split; [eauto|]. split; [exact Ha|]. intros o' H1 H2. apply i, in_flat_map. eauto.
Qed.
End Main.
Print Assumptions C75_nodes.
Print Assumptions C75_edges.
Print Assumptions C75_captures.
Print Assumptions C75_declared.

(** ** Clusters *)
(** Reading the file from the top with a stack of open clusters: where each node is. [None]: a cluster is closed that was not opened. *)
Fixpoint walk (stack : list string) (l : list line) : option (list (list string * (string * N)) * list string) :=
  match l with
  | [] => Some ([], stack)
  | LBegin t _ :: l => walk (t :: stack) l
  | LEnd :: l => match stack with [] => None | _ :: stack => walk stack l end
  | LNode a t _ _ :: l => match walk stack l with Some (r, s) => Some ((stack, (t, a)) :: r, s) | None => None end
  | _ :: l => walk stack l
  end.
(** Where each primitive ran: the methods and calls around it, innermost first. *)
Fixpoint placed (stack : list string) (i : item) : list (list string * (string * N)) :=
  match i with
  | Op t _ out _ => [(stack, (t, out))]
  | Sub t body => flat_map (placed (t :: stack)) body
  end.
Lemma walk_app : forall l m s r s', walk s l = Some (r, s') -> walk s (l ++ m) = match walk s' m with Some (r', s'') => Some (r ++ r', s'') | None => None end.
Proof.
  induction l as [|x l IH]; intros m s r s' H; cbn [walk app] in *.
  - injection H as <- <-. destruct (walk s m) as [[? ?]|]; reflexivity.
  - destruct x; try (now apply IH).
    + destruct (walk s l) as [[r0 s0]|] eqn:E; [|discriminate H]. injection H as <- <-. rewrite (IH m _ _ _ E). destruct (walk s0 m) as [[? ?]|]; reflexivity.
    + destruct s; [discriminate H|]. now apply IH.
Qed.
Lemma walk_skip l s : Forall (fun x => match x with LEdge _ _ | LArg _ _ _ | LCapture _ => True | _ => False end) l -> walk s l = Some ([], s).
Proof. induction 1 as [|x l H F IH]; [reflexivity|]. destruct x; try contradiction; exact IH. Qed.
Fixpoint gplaced (stack : list string) (g : graph) : list (list string * (string * N)) :=
  match g with Graph t n _ s => map (fun x => (t :: stack, (n_title x, n_out x))) n ++ flat_map (gplaced (t :: stack)) s end.
Section Walk.
Variables (args outputs : list (list string * N)) (is_tuple : bool).
Lemma walk_nodes n s : walk s (map (node_line outputs is_tuple) n) = Some (map (fun x => (s, (n_title x, n_out x))) n, s).
Proof. induction n as [|x n IH]; [reflexivity|]. cbn [map node_line walk]. now rewrite IH. Qed.
Lemma walk_edges u e s : walk s (edge_lines args u e) = Some ([], s).
Proof. apply walk_skip. eapply Forall_impl; [|apply edge_lines_edges]. intros l (x & y & ->). exact I. Qed.
Lemma walk_glines : forall g d u s, walk s (glines args outputs is_tuple d u false g) = Some (gplaced s g, s).
Proof.
  induction g as [t n e subs IH] using graph_ind'. intros d u s. rewrite glines_eq. cbn [app walk]. rewrite (walk_app _ _ _ _ _ (walk_nodes n (t :: s))).
  assert (S : forall d u, walk (t :: s) (glines_subs args outputs is_tuple d u subs) = Some (flat_map (gplaced (t :: s)) subs, t :: s)).
  { intros d' u'. revert u'. induction IH as [|x l Hx H IHl]; intros u'; [reflexivity|]. cbn [glines_subs flat_map]. rewrite (walk_app _ _ _ _ _ (Hx _ _ _)), IHl. reflexivity. }
  rewrite (walk_app _ _ _ _ _ (S _ _)). cbn [walk]. rewrite walk_edges. cbn [gplaced]. now rewrite app_nil_r.
Qed.
Lemma gplaced_items : forall i s, Permutation (map (fun x => (s, (n_title x, n_out x))) (nodes_of [i]) ++ flat_map (gplaced s) (graph_of i)) (placed s i).
Proof.
  induction i as [t ins out more|t body IH] using item_ind'; intros s; [reflexivity|]. cbn [nodes_of flat_map app graph_of placed gplaced map]. rewrite app_nil_r.
  induction IH as [|i l Hi H IHl]; [reflexivity|]. cbn [nodes_of flat_map]. fold (nodes_of l). rewrite !flat_map_app, map_app. specialize (Hi (t :: s)). cbn [nodes_of flat_map] in Hi. rewrite app_nil_r in Hi.
  rewrite <- Hi, <- IHl. rewrite <- !app_assoc. apply Permutation_app_head. rewrite !app_assoc. apply Permutation_app_tail. apply Permutation_app_comm.
Qed.
(** Clusters are closed properly, and every node is in the clusters of the methods and calls it ran in. *)
Theorem C75_clusters title body : fresh (flat_map ops body) -> exists r,
  walk [] (graph_to_dot args outputs is_tuple (to_graph title body)) = Some (r, []) /\ Permutation r (flat_map (placed []) body).
Proof.
  intros F. destruct (file_eq args outputs is_tuple title body F) as (s & _ & ->). unfold the_graph at 2. rewrite glines_eq. cbn [app].
  rewrite <- !app_assoc. rewrite (walk_app _ _ _ _ _ (walk_nodes _ [])).
  assert (S : forall d u l, walk [] (glines_subs args outputs is_tuple d u l) = Some (flat_map (gplaced []) l, [])).
  { intros d u l. revert u. induction l as [|x l IHl]; intros u; [reflexivity|]. cbn [glines_subs flat_map]. rewrite (walk_app _ _ _ _ _ (walk_glines _ _ _ _)), IHl. reflexivity. }
  rewrite (walk_app _ _ _ _ _ (S _ _ _)). rewrite (walk_app _ _ _ _ _ (walk_edges _ _ _)).
  rewrite walk_skip.
  2:{ apply Forall_app. split; apply Forall_forall; intros x Hx; [unfold arg_lines in Hx; apply in_flat_map in Hx as (p & _ & Hx)|]; apply in_map_iff in Hx as (i & <- & _); exact I. }
  eexists. split; [reflexivity|]. cbn [app]. rewrite app_nil_r. clear. induction body as [|i l IHl]; [reflexivity|]. cbn [nodes_of flat_map]. fold (nodes_of l). rewrite !flat_map_app, map_app.
  pose proof (gplaced_items i []) as Hi. cbn [nodes_of flat_map] in Hi. rewrite app_nil_r in Hi.
  rewrite <- Hi, <- IHl. rewrite <- !app_assoc. apply Permutation_app_head. rewrite !app_assoc. apply Permutation_app_tail. apply Permutation_app_comm.
Qed.
(** The depth that scales the font of a label is positive. *)
Lemma max_depth_pos g : (1 <= max_depth g)%Z.
Proof. destruct g as [t n e [|x s]]; cbn [max_depth]; [lia|]. assert (H : forall l, (0 <= fold_right Z.max 0 l)%Z) by (induction l; cbn [fold_right]; lia). specialize (H (map max_depth (x :: s))). lia. Qed.
Lemma glines_depth : forall g d u top, (max_depth g <= d)%Z -> forall t d', In (LBegin t d') (glines args outputs is_tuple d u top g) -> (1 <= d')%Z.
Proof.
  induction g as [t n e subs IH] using graph_ind'. intros d u top Hd t' d' H. pose proof (max_depth_pos (Graph t n e subs)) as P.
  rewrite glines_eq in H. rewrite !in_app_iff in H. destruct H as [H|[H|[H|[H|H]]]].
  - destruct top; [destruct H | destruct H as [H|[]]; injection H as _ <-; lia].
  - apply in_map_iff in H as (x & H & _). discriminate H.
  - assert (M : forall x, In x subs -> (max_depth x <= d - 1)%Z).
    { intros x Hx. assert (max_depth x <= fold_right Z.max 0 (map max_depth subs))%Z by (clear - Hx; induction subs as [|y l IHl]; [destruct Hx|]; cbn [map fold_right]; destruct Hx as [->|Hx]; [lia | specialize (IHl Hx); lia]).
      destruct subs as [|y l]; [destruct Hx|]. cbn [max_depth] in Hd. lia. }
    revert u H. clear Hd P. generalize (d - 1)%Z, M. clear M. intros dd M. induction IH as [|x l Hx HF IHl]; intros u H; [destruct H|]. cbn [glines_subs] in H.
    apply in_app_or in H as [H|H]; [apply (Hx _ _ _ (M x (or_introl eq_refl)) _ _ H) | apply (IHl (fun y Hy => M y (or_intror Hy)) _ H)].
  - destruct top; [destruct H | destruct H as [H|[]]; discriminate H].
  - pose proof (edge_lines_edges args e (u ++ filter (is_arg args) (sources (flat_map gedges subs)))) as Z. rewrite Forall_forall in Z. apply Z in H as (x & y & H). discriminate H.
Qed.
Theorem C75_depth title body t d : fresh (flat_map ops body) -> In (LBegin t d) (graph_to_dot args outputs is_tuple (to_graph title body)) -> (1 <= d)%Z.
Proof.
  intros F H. destruct (file_eq args outputs is_tuple title body F) as (s & _ & E). rewrite E in H. rewrite !in_app_iff in H. destruct H as [H|[H|H]].
  - eapply glines_depth; [|exact H]. lia.
  - unfold arg_lines in H. apply in_flat_map in H as (p & _ & H). apply in_map_iff in H as (i & H & _). discriminate H.
  - apply in_map_iff in H as (i & H & _). discriminate H.
Qed.
End Walk.
Print Assumptions C75_clusters.
Print Assumptions C75_depth.

(** ** Names *)
Local Open Scope string_scope.
Lemma length_append : forall a b, String.length (a ++ b) = (String.length a + String.length b)%nat.
Proof. induction a as [|c a IH]; intros b; cbn [append String.length]; [reflexivity | now rewrite IH]. Qed.
Lemma append_inj : forall a b x y, String.length a = String.length b -> a ++ x = b ++ y -> a = b /\ x = y.
Proof.
  induction a as [|c a IH]; intros [|d b] x y L H; try discriminate L; [auto|]. cbn [append] in H. injection H as -> H. injection L as L. destruct (IH b x y L H) as [-> ->]. auto.
Qed.
(** With identities of the same number of digits different sources have different names. *)
Theorem C75_names w s1 s2 : String.length (str_of_N (source_id s1)) = w -> String.length (str_of_N (source_id s2)) = w ->
  source_name s1 = source_name s2 -> s1 = s2.
Proof.
  assert (P : forall i, (0 < String.length (str_of_N i))%nat) by (intros i; pose proof (str_of_N_nonempty i); destruct (str_of_N i); [contradiction | cbn; lia]).
  destruct s1 as [a i|a], s2 as [b j|b]; cbn [source_id source_name]; intros L1 L2 H.
  - apply append_inj in H as [H1 H2]; [|congruence]. apply str_of_N_inj in H1 as ->. apply str_of_N_inj in H2. apply Nnat.Nat2N.inj in H2 as ->. reflexivity.
  - apply (f_equal String.length) in H. rewrite length_append in H. specialize (P (N.of_nat i)). lia.
  - apply (f_equal String.length) in H. rewrite length_append in H. specialize (P (N.of_nat j)). lia.
  - apply str_of_N_inj in H as ->. reflexivity.
Qed.
Print Assumptions C75_names.
(** Otherwise a use of an argument can have the name of another object. *)
Theorem C75_names_refuted : ~ (forall args outputs tup t body a i l b ti os nm, fresh (flat_map ops body) ->
  let file := graph_to_dot args outputs tup (to_graph t body) in
  In (LArg a i l) file -> In (LNode b ti os nm) file -> source_name (FromArg a i) <> source_name (From b)).
Proof.
  intros H. specialize (H [(["0"], 1%N)] [] false "f" [Op "neg" [1%N] 10%N []] 1%N 0%nat (arg_label ["0"] 0) 10%N "neg" [10%N] None). cbn [flat_map ops app] in H.
  apply H; [|right; right; now left | now left | reflexivity]. cbn. split; [|exact I]. intros a o' [<-|[]] [<-|[]] [X|[]]. discriminate X.
Qed.
Print Assumptions C75_names_refuted.

(** ** Escaping *)
Theorem C75_escape s : (forall c, In c ["<"; ">"; """"; "'"]%char -> forall i, String.get i (escape s) <> Some c) /\ forall t, escape s = escape t -> s = t.
Proof.
  split.
  - intros c Hc. assert (X : all_chars (fun x => negb (Ascii.eqb x c)) (escape s) = true).
    { induction s as [|d s IH]; [reflexivity|]. cbn [escape]. rewrite all_chars_app, IH, andb_true_r. clear IH. unfold escape_char.
      destruct (Ascii.eqb_spec d "&"); [destruct Hc as [<-|[<-|[<-|[<-|[]]]]]; reflexivity|]. destruct (Ascii.eqb_spec d "<"); [destruct Hc as [<-|[<-|[<-|[<-|[]]]]]; reflexivity|].
      destruct (Ascii.eqb_spec d ">"); [destruct Hc as [<-|[<-|[<-|[<-|[]]]]]; reflexivity|]. destruct (Ascii.eqb_spec d """"); [destruct Hc as [<-|[<-|[<-|[<-|[]]]]]; reflexivity|].
      destruct (Ascii.eqb_spec d "'"); [destruct Hc as [<-|[<-|[<-|[<-|[]]]]]; reflexivity|]. cbn [all_chars]. rewrite andb_true_r, negb_true_iff. apply Ascii.eqb_neq. intros ->. cbn in Hc. intuition congruence. }
    generalize (escape s) X. clear. intros u. induction u as [|d u IH]; intros H [|i]; cbn [String.get]; try discriminate; cbn [all_chars] in H; apply andb_true_iff in H as [H1 H2].
    + intros [= ->]. now rewrite Ascii.eqb_refl in H1.
    + now apply IH.
  - revert s. induction s as [|c s IH]; intros [|d t] H; cbn [escape] in H; [reflexivity | exfalso | exfalso |].
    + unfold escape_char in H. repeat match type of H with context [Ascii.eqb d ?k] => destruct (Ascii.eqb d k) end; discriminate H.
    + unfold escape_char in H. repeat match type of H with context [Ascii.eqb c ?k] => destruct (Ascii.eqb c k) end; discriminate H.
    + unfold escape_char in H.
      destruct (Ascii.eqb_spec c "&") as [->|C1]; [|destruct (Ascii.eqb_spec c "<") as [->|C2]; [|destruct (Ascii.eqb_spec c ">") as [->|C3]; [|destruct (Ascii.eqb_spec c """") as [->|C4]; [|destruct (Ascii.eqb_spec c "'") as [->|C5]]]]];
      (destruct (Ascii.eqb_spec d "&") as [->|D1]; [|destruct (Ascii.eqb_spec d "<") as [->|D2]; [|destruct (Ascii.eqb_spec d ">") as [->|D3]; [|destruct (Ascii.eqb_spec d """") as [->|D4]; [|destruct (Ascii.eqb_spec d "'") as [->|D5]]]]]);
      cbn [append] in H; try discriminate H; try (injection H as H; f_equal; now apply IH); try (injection H as H; congruence); try (injection H as -> H; f_equal; now apply IH).
Qed.
Print Assumptions C75_escape.
(** Only the first element of the path of an argument is escaped: a dictionary key goes into the label as it is. *)
Theorem C75_arg_label_refuted : ~ (forall p q, exists before, arg_label [p; q] 0 = before ++ escape q ++ "</b>").
Proof.
  intros H. destruct (H "0" "<") as (b & E). apply (f_equal String.length) in E as L. rewrite length_append in L. cbn in L. cbn in E. do 10 (destruct b as [|? b]; [discriminate E|]; cbn [append] in E; injection E as _ E). cbn in L. lia.
Qed.
Print Assumptions C75_arg_label_refuted.

(** ** Several outputs, repeated values *)
(** The label of an output names its position in a returned tuple, and its path inside. *)
Theorem C75_output_label : (forall p, format_path true [p] = "output[" ++ p ++ "]") /\ (forall p q r, format_path true [p; q; r] = "output[" ++ p ++ "]: " ++ q ++ "/" ++ r) /\
  (forall p q, format_path true [p] = format_path true [q] -> p = q) /\
  format_path false [] = "output" /\ (forall q r, format_path false [q; r] = "output: " ++ q ++ "/" ++ r).
Proof.
  split; [intros p; cbn; do 7 f_equal; induction p as [|c p IH]; cbn; congruence|].
  split; [intros p q r; cbn; do 7 f_equal; induction p as [|c p IH]; cbn; congruence|].
  split; [|split; reflexivity]. intros p q E. cbn in E. injection E as E. revert q E. induction p as [|c p IH]; intros [|d q] E; cbn in E.
  - reflexivity.
  - injection E as _ E. destruct q; discriminate.
  - injection E as _ E. destruct p; discriminate.
  - injection E as -> E. f_equal. now apply IH.
Qed.
Print Assumptions C75_output_label.
(** But a slash in a key is not told from a nested key. *)
Theorem C75_output_path_refuted : ~ (forall t p q, format_path t p = format_path t q -> p = q).
Proof. intros H. discriminate (H true ["0"; "a/b"] ["0"; "a"; "b"] eq_refl). Qed.
Print Assumptions C75_output_path_refuted.
(** An edge from an output that is not the first of its primitive starts at a name that is not declared; returning such an output marks
    no node. *)
Theorem C75_second_output_refuted :
  ~ (forall args outputs tup t body a b, fresh (flat_map ops body) -> let file := graph_to_dot args outputs tup (to_graph t body) in
       In (LEdge (From a) b) file -> (exists ti os nm, In (LNode a ti os nm) file) \/ In (LCapture a) file) /\
  ~ (forall args outputs tup t body a, fresh (flat_map ops body) -> In a (map snd outputs) -> In a (flat_map o_outs (flat_map ops body)) ->
       exists ti os nm, In (LNode a ti os (Some nm)) (graph_to_dot args outputs tup (to_graph t body))).
Proof.
  split; intros H.
  - specialize (H [] [] false "f" [Op "sort" [1%N] 2%N [3%N]; Op "neg" [3%N] 4%N []] 3%N 4%N).
    assert (F : fresh (flat_map ops [Op "sort" [1%N] 2%N [3%N]; Op "neg" [3%N] 4%N []])).
    { cbn. split; [|split; [|exact I]]; intros a o' [<-|[]] Ho X; repeat (destruct Ho as [<-|Ho]; [cbn in X; intuition discriminate|]); destruct Ho. }
    destruct (H F) as [(ti & os & nm & X)|X].
    + vm_compute. right. right. right. now left.
    + vm_compute in X. intuition discriminate.
    + vm_compute in X. intuition discriminate.
  - specialize (H [] [([], 3%N)] false "f" [Op "sort" [1%N] 2%N [3%N]] 3%N).
    assert (F : fresh (flat_map ops [Op "sort" [1%N] 2%N [3%N]])).
    { cbn. split; [|exact I]; intros a o' [<-|[]] Ho X; repeat (destruct Ho as [<-|Ho]; [cbn in X; intuition discriminate|]); destruct Ho. }
    destruct (H F) as (ti & os & nm & X); [now left | cbn; auto|]. vm_compute in X. intuition discriminate.
Qed.
Print Assumptions C75_second_output_refuted.
(** A captured value used twice is declared twice; so is an argument passed in two positions. *)
Theorem C75_declared_once_refuted : ~ (forall args outputs tup t body, fresh (flat_map ops body) ->
  NoDup (flat_map (fun l => match l with LCapture a => [source_name (From a)] | LArg a i _ => [source_name (FromArg a i)] | _ => [] end)
                  (graph_to_dot args outputs tup (to_graph t body)))).
Proof.
  intros H. specialize (H [] [] false "f" [Op "add" [1; 1]%N 2%N []]).
  assert (F : fresh (flat_map ops [Op "add" [1; 1]%N 2%N []])).
  { cbn. split; [|exact I]; intros a o' Ha Ho X. destruct Ho as [<-|[]]. cbn in X. intuition subst; discriminate. }
  specialize (H F). vm_compute in H. inversion H as [|? ? N _]. apply N. now left.
Qed.
Print Assumptions C75_declared_once_refuted.

(** A module inside a function: [x * x] outside, [x @ w + 1] inside, the result returned. *)
Definition demo : list item := [Op "mul" [1; 1]%N 5%N []; Sub "linear" [Op "dot" [5; 2]%N 6%N []; Op "add" [6; 9]%N 7%N []]; Op "neg" [7%N] 8%N []].
Example C75_case : fresh (flat_map ops demo) /\
  graph_to_dot [(["0"], 1%N); (["1"; "w"], 2%N); (["1"; "b"], 3%N)] [([], 8%N)] false (to_graph "f" demo) =
  [LNode 5 "mul" [5%N] None; LNode 8 "neg" [8%N] (Some "output"); LBegin "linear" 1; LNode 6 "dot" [6%N] None; LNode 7 "add" [7%N] None; LEnd;
   LEdge (From 5) 6; LEdge (FromArg 2 0) 6; LEdge (From 6) 7; LEdge (From 9) 7; LEdge (FromArg 1 0) 5; LEdge (FromArg 1 1) 5; LEdge (From 7) 8;
   LArg 1 0 "<b>args[0]</b>"; LArg 1 1 "<b>(reuse)</b><br/><b>args[0]</b>"; LArg 2 0 "<b>args[1]: w</b>"; LCapture 9].
Proof.
  split; [|reflexivity]. cbn. repeat split; intros a o' Ha Ho X; repeat (destruct Ho as [<-|Ho]; [cbn in X; intuition (subst; discriminate)|]); destruct Ho.
Qed.
