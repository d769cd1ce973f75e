(** Distances: C32 - C35, C47. *)
From Coq Require Import String Reals Lra QArith SpecFloat.
From Verif Require Import Base ModelCore ModelVPTree ModelArith ModelCover ModelMetrics SpecMetric SpecMetrics
  SpecCover SpecCubical MetricProp CoverProp.
Open Scope R_scope.

(** ** C32: euclidean, manhattan, chebyshev *)
Theorem C32_euclidean_metric : forall m, @metric_on (list R) (dim m) (euclidean RA sqrt).
Proof. exact euclidean_metric. Qed.
Print Assumptions C32_euclidean_metric.
Theorem C32_manhattan_metric : forall m, @metric_on (list R) (dim m) (manhattan RA sqrt).
Proof. exact manhattan_metric. Qed.
Print Assumptions C32_manhattan_metric.
Theorem C32_chebyshev_metric : forall m, @metric_on (list R) (dim m) (chebyshev_norm RA sqrt).
Proof. exact chebyshev_metric. Qed.
Print Assumptions C32_chebyshev_metric.

(** They are the documented distances. *)
Theorem C32_documented : forall x y : list R, List.length x = List.length y ->
  is_euclidean x y (euclidean RA sqrt x y) /\
  is_manhattan x y (manhattan RA sqrt x y) /\
  is_chebyshev x y (chebyshev_norm RA sqrt x y).
Proof.
  intros x y L. split; [apply euclidean_doc|]. split; [apply manhattan_doc|apply chebyshev_doc, L].
Qed.
Print Assumptions C32_documented.

(** Hence a [BallCover] with one of these names searches exactly. *)
Theorem C32_ball_cover_named : forall name m (c : ball_cover R) (X : list (list R)),
  In name ["euclidean"; "manhattan"; "chebyshev"]%string ->
  Forall (dim m) X -> X <> [] -> (1 <= bc_leaf_capacity c)%nat -> tp_kind (bc_tree c) <> OtherKind ->
  exists (d : list R -> list R -> R) search,
    get_metric RA sqrt (Name name) [] = Ok (total_fn RA d) /\
    ball_fit Rleb Rltb Rgap 0 d c X = Ok search /\
    forall q, dim m q -> exists ids, search q = Ok ids /\ NoDup ids /\
      forall i, In i ids <-> exists x, nth_error X i = Some x /\ d q x < bc_radius c.
Proof.
  intros name m c X Hn HX Ne Hc Hk.
  assert (H : forall d : list R -> list R -> R, @metric_on (list R) (dim m) d ->
    get_metric RA sqrt (Name name) [] = Ok (total_fn RA d) ->
    exists (d : list R -> list R -> R) search,
    get_metric RA sqrt (Name name) [] = Ok (total_fn RA d) /\
    ball_fit Rleb Rltb Rgap 0 d c X = Ok search /\
    forall q, dim m q -> exists ids, search q = Ok ids /\ NoDup ids /\
      forall i, In i ids <-> exists x, nth_error X i = Some x /\ d q x < bc_radius c).
  { intros d M G. destruct (ball_search_real (dim m) d c X (metric_pseudo _ _ M) HX Ne Hc Hk) as [s [E S]].
    exists d, s. auto. }
  destruct Hn as [<-|[<-|[<-|[]]]].
  - apply (H _ (euclidean_metric m)). reflexivity.
  - apply (H _ (manhattan_metric m)). reflexivity.
  - apply (H _ (chebyshev_metric m)). reflexivity.
Qed.
Print Assumptions C32_ball_cover_named.

Example C32_values :
  euclidean RA sqrt [0; 1; 2] [3; 5; 2] = 5 /\
  manhattan QA (fun a => a) [0; 1; 2]%Q [3; 5; 2]%Q = 7%Q /\
  chebyshev_norm QA (fun a => a) [0; 1; 2]%Q [3; 5; 2]%Q = 4%Q.
Proof.
  split; [|split; vm_compute; reflexivity]. unfold euclidean, norm2, sum_n, zero. simpl.
  replace (0 + (0 - 3) * (0 - 3) + (1 - 5) * (1 - 5) + (2 - 2) * (2 - 2)) with (5 * 5) by ring.
  apply sqrt_square. lra.
Qed.

(** ** C33: minkowski *)
Theorem C33_minkowski_metric : forall p m, 1 <= p -> exists d, @metric_on (list R) (dim m) d /\
  forall x y, minkowski RA sqrt (Ord (A:=RA) p) x y = Ok (d x y) /\ is_minkowski p x y (d x y).
Proof. exact minkowski_metric. Qed.
Print Assumptions C33_minkowski_metric.

Theorem C33_special_orders : forall x y : list R,
  minkowski RA sqrt (Ord (A:=RA) 1) x y = Ok (manhattan RA sqrt x y) /\
  minkowski RA sqrt (Ord (A:=RA) 2) x y = Ok (euclidean RA sqrt x y) /\
  minkowski RA sqrt PosInf x y = Ok (chebyshev_norm RA sqrt x y) /\
  minkowski RA sqrt NegInf x y = Ok (chebyshev_norm RA sqrt x y).
Proof. exact minkowski_special. Qed.
Print Assumptions C33_special_orders.

(** Orders in (0, 1) are accepted, and never give a metric. *)
Theorem C33_small_order_triangle_refuted : forall p, 0 < p < 1 -> exists (x y z : list R) dxy dyz dxz,
  minkowski RA sqrt (Ord (A:=RA) p) x y = Ok dxy /\ minkowski RA sqrt (Ord (A:=RA) p) y z = Ok dyz /\
  minkowski RA sqrt (Ord (A:=RA) p) x z = Ok dxz /\ dxy + dyz < dxz.
Proof. intros p Hp. exists [1; 0], [0; 0], [0; 1]. apply minkowski_small_p, Hp. Qed.
Print Assumptions C33_small_order_triangle_refuted.

(** Negative orders: different points at distance 0, no triangle inequality. *)
Theorem C33_negative_order_triangle_refuted : forall p, p < 0 -> exists (x y z : list R) d,
  x <> y /\ minkowski RA sqrt (Ord (A:=RA) p) x y = Ok 0 /\ minkowski RA sqrt (Ord (A:=RA) p) y z = Ok 0 /\
  minkowski RA sqrt (Ord (A:=RA) p) x z = Ok d /\ 0 < d.
Proof.
  intros p Hp. destruct (minkowski_negative p Hp) as [d H]. exists [0; 0], [0; 1], [1; 1], d.
  split; [|exact H]. intro E. injection E. intro. lra.
Qed.
Print Assumptions C33_negative_order_triangle_refuted.

(** Order 0 is accepted too; it counts the different entries, a metric. *)
Theorem C33_order_zero : forall m, exists d, @metric_on (list R) (dim m) d /\
  forall x y, minkowski RA sqrt (Ord (A:=RA) 0) x y = Ok (d x y) /\
    d x y = total (fun a b => if Req_EM_T a b then 0 else 1) x y.
Proof.
  intro m. eexists. split; [apply hamming_metric|]. intros x y. split; [apply minkowski_zero|reflexivity].
Qed.
Print Assumptions C33_order_zero.

(** Order 3 on a concrete pair: [3^3 + 4^3 + 5^3 = 6^3]. *)
Example C33_value : is_minkowski 3 [0; 0; 0] [3; 4; 5] 6.
Proof.
  split; [lra|]. exists (fun a => a * a * a). split.
  - intros a [H| <-]; [right|left; split; lra]. split; [exact H|].
    replace 3 with (INR 3) by (simpl; lra). rewrite Rpower_pow by exact H. simpl. ring.
  - simpl. rewrite !Rabs_left by lra. lra.
Qed.

(** ** C34: cosine *)
Theorem C34_cosine_pseudo_metric : forall m, exists d,
  pseudo_metric_on (fun x => dim m x /\ nonzero x) d /\
  forall x y, dim m x -> dim m y -> nonzero x -> nonzero y ->
    cosine RA sqrt x y = Ok (d x y) /\ is_cosine x y (d x y).
Proof. exact cosine_pseudo_metric. Qed.
Print Assumptions C34_cosine_pseudo_metric.

Theorem C34_cosine_unit_metric : forall m, exists d,
  @metric_on (list R) (fun x => dim m x /\ total Rmult x x = 1) d /\
  forall x y, dim m x -> dim m y -> total Rmult x x = 1 -> total Rmult y y = 1 ->
    cosine RA sqrt x y = Ok (d x y).
Proof. exact cosine_unit_metric. Qed.
Print Assumptions C34_cosine_unit_metric.

Theorem C34_cosine_zero_vector : forall x y : list R, ~ nonzero x \/ ~ nonzero y ->
  cosine RA sqrt x y = Err ZeroDivisionError.
Proof. exact cosine_zero. Qed.
Print Assumptions C34_cosine_zero_vector.

Theorem C34_cosine_range : forall (x y : list R) d, List.length x = List.length y ->
  cosine RA sqrt x y = Ok d -> 0 <= d <= 2.
Proof. exact cosine_range. Qed.
Print Assumptions C34_cosine_range.

(** It does not separate points in general. *)
Theorem C34_cosine_separates_refuted : exists x y : list R, x <> y /\ nonzero x /\ nonzero y /\
  List.length x = List.length y /\ cosine RA sqrt x y = Ok 0.
Proof.
  assert (Nx : nonzero [1]) by (exists 1; split; [left; reflexivity|lra]).
  assert (Ny : nonzero [2]) by (exists 2; split; [left; reflexivity|lra]).
  exists [1], [2]. split; [intro E; injection E; lra|]. do 3 (split; auto).
  rewrite cosine_unit by auto. f_equal.
  assert (E : forall a, 0 < a -> unit [a] = [1]).
  { intros a Ha. unfold unit, nrm. simpl. rewrite Rplus_0_r, sqrt_square by lra. f_equal. field. lra. }
  rewrite !E by lra. apply (m_zero _ _ (euclidean_metric 1)); reflexivity.
Qed.
Print Assumptions C34_cosine_separates_refuted.

Example C34_nonzero : dim 2 [3; 4] /\ nonzero [3; 4] /\ dim 2 [3 / 5; 4 / 5] /\
  total Rmult [3 / 5; 4 / 5] [3 / 5; 4 / 5] = 1.
Proof. repeat split. - exists 3. split; [left; reflexivity|lra]. - simpl. lra. Qed.

(** ** C35: get_metric *)
Theorem C35_callable : forall (A : arith) root f kw, get_metric A root (Callable f) kw = Ok f.
Proof. exact get_metric_callable. Qed.
Print Assumptions C35_callable.
Theorem C35_names : forall (A : arith) root,
  get_metric A root (Name "euclidean") [] = Ok (total_fn A (euclidean A root)) /\
  get_metric A root (Name "manhattan") [] = Ok (total_fn A (manhattan A root)) /\
  get_metric A root (Name "chebyshev") [] = Ok (total_fn A (chebyshev_norm A root)) /\
  get_metric A root (Name "cosine") [] = Ok (cosine A root) /\
  forall o, get_metric A root (Name "minkowski") [("p"%string, OrderValue o)] = Ok (minkowski A root o).
Proof. exact get_metric_names. Qed.
Print Assumptions C35_names.
(** ValueError exactly for unsupported values, whatever the keyword arguments. *)
Theorem C35_unknown : forall (A : arith) root arg kw,
  get_metric A root arg kw = Err ValueError <->
  match arg with Callable _ => False | Name s => ~ In s get_supported_metrics | OtherValue => True end.
Proof. exact get_metric_unknown. Qed.
Print Assumptions C35_unknown.
Theorem C35_keywords : forall (A : arith) root,
  (forall s k v kw, In s get_supported_metrics -> s <> "minkowski"%string ->
     get_metric A root (Name s) ((k, v) :: kw) = Err TypeError) /\
  (forall kw, (forall o, kw <> [("p"%string, OrderValue o)]) ->
     get_metric A root (Name "minkowski") kw = Err TypeError).
Proof. intros A root. split; [apply get_metric_extra|apply get_metric_minkowski_p]. Qed.
Print Assumptions C35_keywords.
Example C35_example : ~ In "Euclidean"%string get_supported_metrics /\
  get_metric QA (fun a => a) (Name "Euclidean") [] = Err ValueError.
Proof. split; [|reflexivity]. intros [H|[H|[H|[H|[H|[]]]]]]; discriminate. Qed.

(** ** C47: cosine in double precision *)
Close Scope R_scope.
Definition f_one : num FA := ofz FA 1.
(** [numpy] propagates NaN out of [sqrt]; numba does not raise. *)
Definition f_cosine (x y : list (num FA)) : num FA :=
  match cosine FA fsqrt x y with Ok d => d | Err _ => S754_nan end.
Definition f_gap (a b : num FA) : num FA := SFabs (sub FA a b).

(** The computed distance of a vector to itself can be NaN: the rounded
    similarity exceeds 1. *)
Theorem C47_cosine_self_zero_refuted : exists x : list (num FA),
  (forall a, In a x -> a = f_one) /\ cosine FA fsqrt x x = Ok S754_nan.
Proof.
  exists [f_one; f_one; f_one]. split; [|vm_compute; reflexivity].
  intros a [<-|[<-|[<-|[]]]]; reflexivity.
Qed.
Print Assumptions C47_cosine_self_zero_refuted.

(** A [BallCover] with this metric then leaves the point out of every set,
    although [radius > 0]. *)
Theorem C47_cosine_cover_refuted : exists (c : ball_cover (num FA)) X,
  lt_b FA (zero FA) (bc_radius c) = true /\ tp_kind (bc_tree c) <> OtherKind /\ (1 <= bc_leaf_capacity c)%nat /\
  stops (ball_apply (le_b FA) (lt_b FA) f_gap (zero FA) f_cosine c X) = None /\
  ~ covers (List.length X) (yields (ball_apply (le_b FA) (lt_b FA) f_gap (zero FA) f_cosine c X)).
Proof.
  exists (mkball f_one (mktp Flat Disabled (fun _ => 0)) 1 None), [[f_one; f_one; f_one]].
  split; [vm_compute; reflexivity|]. split; [discriminate|]. split; [simpl; lia|].
  split; [vm_compute; reflexivity|]. intro H. destruct (H 0 ltac:(simpl; lia)) as [s [I _]].
  vm_compute in I. contradiction.
Qed.
Print Assumptions C47_cosine_cover_refuted.
