(** Lemmas about figures and the plotly backend. *)
From Coq Require Import String.
From Verif Require Import Base BaseFacts Dict DictFacts ModelArith ModelCore SpecCore CoreLabels CoreGraph CoreProp UnionFindProp.
From Verif Require Import ModelDraw ModelPlotly SpecPlot DrawFacts.
Open Scope nat_scope.

Lemma string_eqb_decides : decides_eq String.eqb.
Proof. intros x y. apply String.eqb_eq. Qed.

Section Figures.
Context {A : arith} {CS : Type}.
Notation attrs := (attrs A CS).
Notation figure := (figure A CS).

Lemma attr_dset (t : attrs) k v path : attr (dset String.eqb t k v) path = if String.eqb path k then v else attr t path.
Proof. unfold attr. rewrite (dget_dset _ string_eqb_decides). destruct (String.eqb path k); reflexivity. Qed.
Lemma attr_apply_other (patch t : attrs) path : ~ In path (map fst patch) -> attr (apply_patch patch t) path = attr t path.
Proof.
  revert t. induction patch as [|[k v] patch IH]; intros t H; [reflexivity|].
  cbn [apply_patch fold_left fst snd]. change (attr (apply_patch patch (dset String.eqb t k v)) path = attr t path).
  rewrite IH by (intro K; apply H; right; exact K). rewrite attr_dset.
  destruct (String.eqb_spec path k) as [->|]; [exfalso; apply H; left|]; reflexivity.
Qed.
Lemma attr_apply_same (patch t : attrs) path v : NoDup (map fst patch) -> In (path, v) patch -> attr (apply_patch patch t) path = v.
Proof.
  revert t. induction patch as [|[k w] patch IH]; intros t N H; [destruct H|].
  inversion N as [|? ? N1 N2]; subst. cbn [apply_patch fold_left fst snd].
  change (attr (apply_patch patch (dset String.eqb t k w)) path = v). destruct H as [E|H].
  - injection E as -> ->. rewrite attr_apply_other by exact N1. rewrite attr_dset, String.eqb_refl. reflexivity.
  - apply IH; assumption.
Qed.

Lemma fseq_ok (a b : fop A CS) f f2 u : fseq a b f = (f2, Ok u) -> exists f1, a f = (f1, Ok tt) /\ b f1 = (f2, Ok u).
Proof. unfold fseq. destruct (a f) as [f1 [[]|e]] eqn:E; intro H; [eauto|discriminate]. Qed.
Lemma fwith_ok {B} (r : res B) (k : B -> fop A CS) f f2 u : fwith r k f = (f2, Ok u) -> exists b, r = Ok b /\ k b f = (f2, Ok u).
Proof. unfold fwith. destruct r as [b|e]; intro H; [eauto|discriminate]. Qed.
End Figures.

Section Markers.
Variable A : arith.
Variable CS : Type.
Variable get_colorscale : string -> res CS.
Variable plotly_cmap : string -> option string.
Variable str_num : num A -> string.
Variable m : mapper_plot A.
Notation g := (mp_graph m).
Notation dim := (mp_dim m).
Hypothesis W : well_formed g.

Lemma pos_at_ok i n x : pos_at A (mp_pos m) i n = Ok x <-> exists p, has_pos m n p /\ nth_error p i = Some x.
Proof.
  unfold pos_at, dget_res, has_pos. destruct (dget Z.eqb (mp_pos m) n) as [p|]; cbn [bind].
  - rewrite rd_ok. split; [eauto|]. intros [p' [E H]]. injection E as <-. exact H.
  - split; [discriminate|]. intros [p [H _]]. discriminate.
Qed.

Lemma node_axis arr i xs : node_pos_array A m = Ok arr -> nth_error arr i = Some xs ->
  length xs = length (g_nodes g) /\
  forall k n s ids, nth_error (g_nodes g) k = Some (n, (s, ids)) ->
    exists p x, has_pos m n p /\ nth_error p i = Some x /\ nth_error xs k = Some x.
Proof.
  unfold node_pos_array. intros H E. apply map_res_nth in H. destruct H as [L N].
  assert (Hi : i < dim) by (apply nth_error_lt in E; rewrite L, seq_length in E; exact E).
  destruct (N i i) as [y [E' H]].
  { rewrite (nth_error_nth' _ 0) by (rewrite seq_length; exact Hi). rewrite seq_nth by exact Hi. reflexivity. }
  rewrite E in E'. injection E' as <-. apply map_res_nth in H. destruct H as [L' N'].
  unfold nodes in L', N'. rewrite map_length in L'. split; [exact L'|].
  intros k n s ids Hk. destruct (N' k n) as [x [E1 E2]]; [rewrite nth_error_map, Hk; reflexivity|].
  apply pos_at_ok in E2. destruct E2 as [p [H1 H2]]. eauto.
Qed.

Lemma agg_nth (colors : list (num A)) agg cols : aggregate_graph colors g agg = Ok cols ->
  length cols = length (g_nodes g) /\ dkeys cols = nodes g /\
  forall k n s ids, nth_error (g_nodes g) k = Some (n, (s, ids)) ->
    exists c, nth_error (map snd cols) k = Some c /\ node_color colors agg ids c /\ dget Z.eqb cols n = Some c.
Proof.
  intro H. apply (aggregate_correct colors g agg cols W) in H.
  assert (K : dkeys cols = nodes g).
  { unfold dkeys, nodes. clear W. induction H as [|x y l l' [E _] _ IH]; simpl; [reflexivity|]. rewrite IH, E. reflexivity. }
  assert (L : length cols = length (g_nodes g)).
  { unfold dkeys, nodes in K. apply (f_equal (@length _)) in K. rewrite !map_length in K. exact K. }
  split; [exact L|]. split; [exact K|].
  assert (Nd : NoDup (dkeys cols)) by (rewrite K; exact (proj1 W)).
  intros k n s ids Hk.
  assert (Q : exists c, nth_error cols k = Some (n, c) /\ node_color colors agg ids c).
  { clear - H Hk. revert k Hk. induction H as [|x y l l' [E [xs [H1 H2]]] _ IH]; intros [|k] Hk; try discriminate; simpl in *.
    - injection Hk as ->. simpl in *. destruct y as [z c]. simpl in *. subst z. exists c. split; [reflexivity|]. exists xs. auto.
    - apply IH. exact Hk. }
  destruct Q as [c [Q1 Q2]]. exists c. split; [rewrite nth_error_map, Q1; reflexivity|]. split; [exact Q2|].
  apply (dget_entry_nodup _ Z_eqb_decides); [exact Nd|]. eapply nth_error_In; eauto.
Qed.

Lemma marker_size_nth sizes : marker_size A m = Ok sizes ->
  length sizes = length (g_nodes g) /\
  forall k n s ids, nth_error (g_nodes g) k = Some (n, (s, ids)) ->
    exists M, largest g M /\ M <> 0 /\
      nth_error sizes k = Some (div A (mul A (ofz A (size_factor A m)) (ofz A (Z.of_nat s))) (ofz A (Z.of_nat M))).
Proof.
  unfold marker_size. intro H. apply map_res_nth in H. destruct H as [L N].
  unfold nodes in L, N. rewrite map_length in L. split; [exact L|].
  intros k n s ids Hk. destruct (N k n) as [x [E1 E2]]; [rewrite nth_error_map, Hk; reflexivity|].
  unfold dget_res in E2. rewrite (attr_size_get g n s ids W) in E2 by (eapply nth_error_In; eauto). cbn [bind] in E2.
  destruct (Nat.eqb_spec (max_size g) 0) as [E|E]; [discriminate|]. injection E2 as <-.
  exists (max_size g). split; [|split; [exact E|exact E1]]. apply max_size_largest.
  intro K. rewrite K in Hk. destruct k; discriminate.
Qed.

Lemma text_nth cols txt : dkeys cols = nodes g -> text A m cols = Ok txt ->
  length txt = length (g_nodes g) /\
  forall k n s ids, nth_error (g_nodes g) k = Some (n, (s, ids)) ->
    exists c, dget Z.eqb cols n = Some c /\ nth_error txt k = Some (c, n, s).
Proof.
  intros K. unfold text. intro H. apply map_res_nth in H. destruct H as [L N].
  unfold nodes in L, N. rewrite map_length in L. split; [exact L|].
  intros k n s ids Hk. destruct (N k n) as [x [E1 E2]]; [rewrite nth_error_map, Hk; reflexivity|].
  unfold dget_res in E2. rewrite (attr_size_get g n s ids W) in E2 by (eapply nth_error_In; eauto).
  destruct (dget Z.eqb cols n) as [c|]; [|discriminate]. cbn [bind] in E2. injection E2 as <-. eauto.
Qed.

(** A line through the end points of the edges, with a gap after each. *)
Lemma concat_triples {X Y} (f : X -> res (list Y)) l parts :
  map_res f l = Ok parts -> (forall x ys, f x = Ok ys -> length ys = 3) ->
  length (concat parts) = 3 * length l /\
  forall k x, nth_error l k = Some x -> exists ys, f x = Ok ys /\
    forall j, j < 3 -> nth_error (concat parts) (3 * k + j) = nth_error ys j.
Proof.
  intros H F. revert parts H. induction l as [|a l IH]; intros parts H; simpl in H.
  - injection H as <-. split; [reflexivity|]. intros [|k] x E; discriminate.
  - apply bind_ok in H. destruct H as [y [H1 H]]. apply bind_ok in H. destruct H as [r [H2 H]]. injection H as <-.
    destruct (IH r H2) as [L N]. pose proof (F _ _ H1) as Ly. cbn [concat]. rewrite app_length. split; [cbn [length]; lia|].
    intros [|k] x E; simpl in E.
    + injection E as <-. exists y. split; [exact H1|]. intros j Hj. rewrite nth_error_app1 by lia. reflexivity.
    + destruct (N k x E) as [ys [E1 E2]]. exists ys. split; [exact E1|]. intros j Hj.
      rewrite nth_error_app2 by lia. rewrite Ly. replace (3 * S k + j - 3) with (3 * k + j) by lia. exact (E2 j Hj).
Qed.

Lemma edge_axis arr i xs : edge_pos_array A m = Ok arr -> nth_error arr i = Some xs ->
  length xs = 3 * length (edges g) /\
  forall k u v, nth_error (edges g) k = Some (u, v) ->
    exists p q x y, has_pos m u p /\ has_pos m v q /\ nth_error p i = Some x /\ nth_error q i = Some y /\
      nth_error xs (3 * k) = Some (Some x) /\ nth_error xs (3 * k + 1) = Some (Some y) /\ nth_error xs (3 * k + 2) = Some None.
Proof.
  unfold edge_pos_array. intros H E. apply map_res_nth in H. destruct H as [L N].
  assert (Hi : i < dim) by (apply nth_error_lt in E; rewrite L, seq_length in E; exact E).
  destruct (N i i) as [y [E' H]].
  { rewrite (nth_error_nth' _ 0) by (rewrite seq_length; exact Hi). rewrite seq_nth by exact Hi. reflexivity. }
  rewrite E in E'. injection E' as <-. unfold edge_pos_axis in H. apply bind_ok in H. destruct H as [parts [H E']]. injection E' as <-.
  apply concat_triples in H.
  - destruct H as [L' N']. split; [exact L'|]. intros k u v Hk. destruct (N' k (u, v) Hk) as [ys [E1 E2]]. cbn [fst snd] in E1.
    apply bind_ok in E1. destruct E1 as [a [Ea E1]]. apply bind_ok in E1. destruct E1 as [b [Eb E1]]. injection E1 as <-.
    apply pos_at_ok in Ea. apply pos_at_ok in Eb. destruct Ea as [p [P1 P2]]. destruct Eb as [q [Q1 Q2]].
    exists p, q, a, b. repeat split; auto.
    + replace (3 * k) with (3 * k + 0) by lia. exact (E2 0 ltac:(lia)).
    + exact (E2 1 ltac:(lia)).
    + exact (E2 2 ltac:(lia)).
  - intros x ys Hx. apply bind_ok in Hx. destruct Hx as [a [_ Hx]]. apply bind_ok in Hx. destruct Hx as [b [_ Hx]]. injection Hx as <-. reflexivity.
Qed.

Lemma edge_color_nth cols ec : edge_colors A m cols = Ok ec ->
  length ec = 3 * length (edges g) /\
  forall k u v, nth_error (edges g) k = Some (u, v) ->
    exists a b, dget Z.eqb cols u = Some a /\ dget Z.eqb cols v = Some b /\
      nth_error ec (3 * k) = Some a /\ nth_error ec (3 * k + 1) = Some b.
Proof.
  unfold edge_colors. intro H. apply bind_ok in H. destruct H as [parts [H E']]. injection E' as <-.
  apply concat_triples in H.
  - destruct H as [L' N']. split; [exact L'|]. intros k u v Hk. destruct (N' k (u, v) Hk) as [ys [E1 E2]]. cbn [fst snd] in E1.
    unfold dget_res in E1.
    destruct (dget Z.eqb cols u) as [a|]; [|discriminate]. destruct (dget Z.eqb cols v) as [b|]; [|discriminate].
    cbn [bind] in E1. injection E1 as <-. exists a, b. repeat split; auto.
    + replace (3 * k) with (3 * k + 0) by lia. exact (E2 0 ltac:(lia)).
    + exact (E2 1 ltac:(lia)).
  - intros x ys Hx. apply bind_ok in Hx. destruct Hx as [a [_ Hx]]. apply bind_ok in Hx. destruct Hx as [b [_ Hx]]. injection Hx as <-. reflexivity.
Qed.
End Markers.
