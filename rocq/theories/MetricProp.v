(** The library's distances are the documented ones, and metrics. *)
From Coq Require Import String Reals Lra Lia List.
From Verif Require Import Base ModelArith ModelMetrics SpecMetric SpecMetrics SpecCubical CubicalFacts VPProp MetricFacts.
Open Scope R_scope.

Lemma pdist_metric p m : 1 <= p -> @metric_on (list R) (dim m) (pdist p).
Proof.
  unfold dim. intro Hp. split; intros.
  - apply pdist_nonneg.
  - apply pdist_zero; [exact Hp|congruence].
  - apply pdist_sym.
  - apply pdist_triangle; congruence.
Qed.

Lemma metric_on_ext {T} (P : T -> Prop) d d' : (forall x y, d x y = d' x y) -> metric_on P d' -> metric_on P d.
Proof.
  intros E [A B C D]. split; intros; rewrite ?E; auto.
Qed.

Lemma euclidean_metric m : @metric_on (list R) (dim m) (euclidean RA sqrt).
Proof. apply metric_on_ext with (1 := euclidean_pdist). apply pdist_metric. lra. Qed.
Lemma manhattan_metric m : @metric_on (list R) (dim m) (manhattan RA sqrt).
Proof. apply metric_on_ext with (1 := manhattan_pdist). apply pdist_metric. lra. Qed.

Lemma chebyshev_metric m : @metric_on (list R) (dim m) (chebyshev_norm RA sqrt).
Proof.
  apply (@metric_on_ext (list R)) with (1 := chebyshev_norm_eq). destruct (cheb_pseudo m) as [A B C]. unfold dim. split; auto.
  - intros x y Hx Hy. apply (cheb_nonneg m); auto.
  - intros x y Hx Hy. split; [|intros ->; auto]. intro H.
    apply nth_ext with (d := 0) (d' := 0); [exact (eq_trans Hx (eq_sym Hy))|]. intros j Hj.
    assert (Hj' : (j < m)%nat) by (rewrite <- Hx; exact Hj). pose proof (cheb_coord m x y j Hx Hy Hj') as Hc. rewrite H in Hc. fold (coord x j) (coord y j).
    pose proof (Rabs_pos (coord x j - coord y j)).
    destruct (Req_dec (coord x j - coord y j) 0) as [E|E]; [lra|]. apply Rabs_no_R0 in E. lra.
Qed.

(** ** Documented values *)
Lemma euclidean_doc (x y : list R) : is_euclidean x y (euclidean RA sqrt x y).
Proof.
  unfold is_euclidean, euclidean, norm2. change (mul RA) with Rmult. change (sub RA) with Rminus.
  rewrite (sum_map2 (fun a => a * a)). split; [apply sqrt_pos|]. apply sqrt_sqrt.
  apply total_nonneg. intros. apply Rle_0_sqr.
Qed.
Lemma manhattan_doc (x y : list R) : is_manhattan x y (manhattan RA sqrt x y).
Proof. apply manhattan_total. Qed.

Lemma chebyshev_doc (x y : list R) : length x = length y -> is_chebyshev x y (chebyshev_norm RA sqrt x y).
Proof.
  intro L. rewrite chebyshev_norm_eq. split.
  - intros j Hj. apply (cheb_coord (length x)); auto.
  - revert y L. induction x as [|a x IH]; intros [|b y] L; simpl in L; try discriminate; [left; auto|right].
    assert (Lx : length y = length x) by lia.
    assert (C0 : 0 <= chebyshev RA x y) by (apply (cheb_nonneg (length x)); auto).
    assert (C1 : forall j, (j < length x)%nat -> Rabs (coord x j - coord y j) <= chebyshev RA x y)
      by (intros; apply (cheb_coord (length x)); auto).
    assert (C2 : forall j, (j < S (length x))%nat ->
        Rabs (coord (a :: x) j - coord (b :: y) j) <= chebyshev RA (a :: x) (b :: y))
      by (intros; apply (cheb_coord (S (length x))); simpl; auto).
    assert (C3 : forall r, 0 <= r -> (forall j, (j < S (length x))%nat ->
        Rabs (coord (a :: x) j - coord (b :: y) j) <= r) -> chebyshev RA (a :: x) (b :: y) <= r)
      by (intros; apply (cheb_le (S (length x))); simpl; auto).
    assert (C4 : forall r, 0 <= r -> (forall j, (j < length x)%nat ->
        Rabs (coord x j - coord y j) <= r) -> chebyshev RA x y <= r)
      by (intros; apply (cheb_le (length x)); auto).
    assert (C5 := C2 0%nat ltac:(lia)). unfold coord in C5. simpl in C5.
    assert (C6 := Rabs_pos (a - b)).
    destruct (Rle_dec (Rabs (a - b)) (chebyshev RA x y)) as [H|H].
    + assert (E : chebyshev RA (a :: x) (b :: y) = chebyshev RA x y).
      { apply Rle_antisym.
        - apply C3; [exact C0|]. intros [|j] Hj; [exact H|]. apply C1. lia.
        - apply C4; [exact (Rle_trans _ _ _ C6 C5)|].
          intros j Hj. apply (C2 (S j)). lia. }
      rewrite E. destruct (IH y ltac:(lia)) as [[Ex E0]|[j [Hj Ej]]].
      * exists 0%nat. split; [simpl; lia|]. unfold coord. simpl. rewrite E0 in *. lra.
      * exists (S j). split; [simpl; lia|]. exact Ej.
    + exists 0%nat. split; [simpl; lia|]. apply Rle_antisym; [apply C2; lia|].
      apply C3; [apply Rabs_pos|]. intros [|j] Hj; [apply Rle_refl|].
      apply Rle_trans with (chebyshev RA x y); [apply C1; lia|]. left. apply Rnot_le_lt, H.
Qed.

Lemma pdist_doc p (x y : list R) : 0 < p -> is_minkowski p x y (pdist p x y).
Proof.
  intro Hp. split; [apply pdist_nonneg|]. exists (fun a => pw a p). split.
  - intros a [H| <-]; [right; rewrite pw_pos by lra; auto|left; split; [reflexivity|apply pw_0]].
  - unfold pdist. rewrite pw_inv'; [reflexivity|lra|apply psum_nonneg].
Qed.

(** The function returned by [minkowski(p)]. *)
Lemma minkowski_pdist p (x y : list R) : 0 < p -> minkowski RA sqrt (Ord (A:=RA) p) x y = Ok (pdist p x y).
Proof.
  intro Hp. unfold minkowski, total_fn.
  destruct (eq_b RA p (ofz RA 1)) eqn:E1.
  - apply RA_eqb in E1. simpl in E1. subst p. rewrite manhattan_pdist. reflexivity.
  - destruct (eq_b RA p (ofz RA 2)) eqn:E2.
    + apply RA_eqb in E2. simpl in E2. subst p. rewrite euclidean_pdist. reflexivity.
    + apply RA_eqb_false in E1, E2. rewrite minkowski_norm_pdist; auto.
Qed.

Lemma minkowski_metric p m : 1 <= p -> exists d, metric_on (dim m) d /\
  forall x y, minkowski RA sqrt (Ord (A:=RA) p) x y = Ok (d x y) /\ is_minkowski p x y (d x y).
Proof.
  intro Hp. exists (pdist p). split; [apply pdist_metric, Hp|]. intros x y.
  split; [apply minkowski_pdist; lra|apply pdist_doc; lra].
Qed.

Lemma minkowski_special (x y : list R) :
  minkowski RA sqrt (Ord (A:=RA) 1) x y = Ok (manhattan RA sqrt x y) /\
  minkowski RA sqrt (Ord (A:=RA) 2) x y = Ok (euclidean RA sqrt x y) /\
  minkowski RA sqrt PosInf x y = Ok (chebyshev_norm RA sqrt x y) /\
  minkowski RA sqrt NegInf x y = Ok (chebyshev_norm RA sqrt x y).
Proof.
  rewrite !minkowski_pdist by lra. rewrite manhattan_pdist, euclidean_pdist. auto.
Qed.

(** For [0 < p < 1] the unit vectors of the plane violate the triangle inequality. *)
Lemma pdist_small_p p : 0 < p < 1 -> pdist p [1; 0] [0; 0] + pdist p [0; 0] [0; 1] < pdist p [1; 0] [0; 1].
Proof.
  intro Hp. unfold pdist, psum, total.
  assert (A0 : forall a b : R, a = b -> Rabs (a - b) = 0) by (intros; subst; rewrite Rminus_diag_eq, Rabs_R0; reflexivity).
  assert (A1 : Rabs (1 - 0) = 1) by (rewrite Rabs_right; lra).
  assert (A2 : Rabs (0 - 1) = 1) by (rewrite Rabs_left; lra).
  rewrite !(A0 0 0), A1, A2 by reflexivity. rewrite !pw_0.
  assert (P1 : forall q, pw 1 q = 1).
  { intro q. rewrite pw_pos by lra. unfold Rpower. rewrite ln_1, Rmult_0_r. apply exp_0. }
  rewrite !P1. replace (1 + (0 + 0)) with 1 by ring. replace (0 + (1 + 0)) with 1 by ring.
  replace (1 + (1 + 0)) with 2 by ring. rewrite !P1.
  rewrite pw_pos by lra. replace (1 + 1) with (Rpower 2 1) by (rewrite Rpower_1; lra).
  apply Rpower_lt; [lra|]. apply (Rmult_lt_reg_r p); [lra|]. replace (1 / p * p) with 1 by (field; lra). lra.
Qed.
Lemma minkowski_small_p p : 0 < p < 1 -> exists dxy dyz dxz : R,
  minkowski RA sqrt (Ord (A:=RA) p) [1; 0] [0; 0] = Ok dxy /\
  minkowski RA sqrt (Ord (A:=RA) p) [0; 0] [0; 1] = Ok dyz /\
  minkowski RA sqrt (Ord (A:=RA) p) [1; 0] [0; 1] = Ok dxz /\ dxy + dyz < dxz.
Proof.
  intro Hp. do 3 eexists. split; [apply minkowski_pdist; lra|]. split; [apply minkowski_pdist; lra|].
  split; [apply minkowski_pdist; lra|]. apply pdist_small_p, Hp.
Qed.

(** ** Cosine *)
Definition nrm (x : list R) : R := sqrt (total Rmult x x).
Lemma nrm_sq x : nrm x * nrm x = total Rmult x x.
Proof.
  apply sqrt_sqrt. induction x as [|a x IH]; simpl; [lra|]. pose proof (Rle_0_sqr a). unfold Rsqr in H. lra.
Qed.
Lemma sum_sq (x : list R) : fold_right Rplus 0 (map (fun a => a * a) x) = total Rmult x x.
Proof. induction x as [|a x IH]; simpl; auto. rewrite IH. reflexivity. Qed.
Lemma norm2_R (x : list R) : norm2 RA sqrt x = nrm x.
Proof.
  unfold norm2, nrm, sum_n. f_equal. change (mul RA) with Rmult. change (add RA) with Rplus. change (zero RA) with 0.
  rewrite fold_left_Rplus, Rplus_0_l. apply sum_sq.
Qed.
Lemma dot_R (x y : list R) : dot RA x y = total Rmult x y.
Proof.
  unfold dot. rewrite <- (map_id (map2 (mul RA) x y)). change (mul RA) with Rmult.
  rewrite (sum_map2 (fun a => a)). reflexivity.
Qed.
Lemma nrm_pos x : nonzero x <-> 0 < nrm x.
Proof.
  assert (Hn : forall l, 0 <= total Rmult l l).
  { induction l as [|a l IH]; simpl; [lra|]. pose proof (Rle_0_sqr a). unfold Rsqr in H. lra. }
  split.
  - intros [a [I Ha]]. apply sqrt_lt_R0. induction x as [|b x IH]; [destruct I|]. simpl.
    pose proof (Hn x). pose proof (Rle_0_sqr b) as Hb. unfold Rsqr in Hb. destruct I as [->|I].
    + assert (0 < a * a) by (destruct (Rdichotomy _ _ Ha); nra). lra.
    + specialize (IH I). lra.
  - intro H. destruct (Forall_Exists_dec (fun a => a = 0) (fun a => Req_EM_T a 0) x) as [F|E].
    + exfalso. assert (E0 : total Rmult x x = 0).
      { clear H. induction F as [|a x -> F IH]; simpl; auto. rewrite IH. ring. }
      unfold nrm in H. rewrite E0, sqrt_0 in H. lra.
    + apply Exists_exists in E as [a [I Ha]]. exists a. auto.
Qed.

(** The vector of length 1 in the same direction. *)
Definition unit (x : list R) : list R := map (fun a => a / nrm x) x.
Lemma unit_length x : List.length (unit x) = List.length x.
Proof. apply map_length. Qed.

Lemma unit_dist (x y : list R) : nonzero x -> nonzero y -> List.length x = List.length y ->
  total (fun a b => (a - b) * (a - b)) (unit x) (unit y) = 2 * (1 - total Rmult x y / (nrm x * nrm y)).
Proof.
  intros Hx Hy L. apply nrm_pos in Hx, Hy.
  assert (H : forall u v, List.length u = List.length v ->
    total (fun a b => (a - b) * (a - b)) (map (fun a => a / nrm x) u) (map (fun a => a / nrm y) v) =
    total Rmult u u / (nrm x * nrm x) + total Rmult v v / (nrm y * nrm y) - 2 * (total Rmult u v / (nrm x * nrm y))).
  { induction u as [|a u IH]; intros [|b v] Lu; simpl in *; try discriminate; [field; lra|].
    rewrite IH by lia. field. lra. }
  unfold unit. rewrite H by exact L. rewrite <- !nrm_sq. field. lra.
Qed.

Lemma cosine_unit (x y : list R) : nonzero x -> nonzero y -> List.length x = List.length y ->
  cosine RA sqrt x y = Ok (euclidean RA sqrt (unit x) (unit y)).
Proof.
  intros Hx Hy L. unfold cosine. rewrite !norm2_R, dot_R.
  pose proof (proj1 (nrm_pos x) Hx). pose proof (proj1 (nrm_pos y) Hy).
  replace (eq_b RA (mul RA (nrm x) (nrm y)) (zero RA)) with false.
  2:{ symmetry. apply RA_eqb_false. unfold zero. simpl. pose proof (Rmult_lt_0_compat _ _ H H0). lra. }
  f_equal. unfold euclidean, norm2. change (mul RA) with Rmult. change (sub RA) with Rminus.
  rewrite (sum_map2 (fun a => a * a)), unit_dist by assumption. reflexivity.
Qed.

Lemma cosine_pseudo_metric m : exists d,
  pseudo_metric_on (fun x => dim m x /\ nonzero x) d /\
  forall x y, dim m x -> dim m y -> nonzero x -> nonzero y ->
    cosine RA sqrt x y = Ok (d x y) /\ is_cosine x y (d x y).
Proof.
  destruct (euclidean_metric m) as [A B C D]. unfold dim in *.
  exists (fun x y => euclidean RA sqrt (unit x) (unit y)). split.
  - split.
    + intros x [Hx _]. apply B; rewrite ?unit_length; auto.
    + intros x y [Hx _] [Hy _]. apply C; rewrite ?unit_length; auto.
    + intros x y z [Hx _] [Hy _] [Hz _]. apply D; rewrite ?unit_length; auto.
  - intros x y Hx Hy Nx Ny. split; [apply cosine_unit; congruence|].
    destruct (euclidean_doc (unit x) (unit y)) as [E1 E2]. split; [exact E1|].
    rewrite unit_dist in E2 by congruence.
    exists (nrm x), (nrm y), (total Rmult x y / (nrm x * nrm y)).
    pose proof (proj1 (nrm_pos x) Nx). pose proof (proj1 (nrm_pos y) Ny).
    repeat split; auto; try apply nrm_sq. field. lra.
Qed.

(** On unit vectors it is a metric. *)
Lemma unit_id x : total Rmult x x = 1 -> unit x = x.
Proof.
  intro H. unfold unit, nrm. rewrite H, sqrt_1. rewrite <- (map_id x) at 2. apply map_ext. intro a. field.
Qed.
Lemma unit_nonzero x : total Rmult x x = 1 -> nonzero x.
Proof. intro H. apply nrm_pos. unfold nrm. rewrite H, sqrt_1. lra. Qed.
Lemma cosine_unit_metric m : exists d,
  metric_on (fun x => dim m x /\ total Rmult x x = 1) d /\
  forall x y, dim m x -> dim m y -> total Rmult x x = 1 -> total Rmult y y = 1 ->
    cosine RA sqrt x y = Ok (d x y).
Proof.
  destruct (euclidean_metric m) as [A B C D]. exists (euclidean RA sqrt). split.
  - split; intros; try tauto; [apply A|apply B|apply C|apply D]; tauto.
  - unfold dim. intros x y Hx Hy Ux Uy. rewrite cosine_unit by (try apply unit_nonzero; congruence).
    rewrite !unit_id by assumption. reflexivity.
Qed.

(** Zero vectors raise. *)
Lemma cosine_zero (x y : list R) : ~ nonzero x \/ ~ nonzero y -> cosine RA sqrt x y = Err ZeroDivisionError.
Proof.
  intro H. unfold cosine. rewrite !norm2_R, dot_R.
  replace (eq_b RA (mul RA (nrm x) (nrm y)) (zero RA)) with true; [reflexivity|].
  symmetry. apply RA_eqb. unfold zero. simpl.
  assert (Z : forall v, ~ nonzero v -> nrm v = 0).
  { intros v Hv. destruct (sqrt_pos (total Rmult v v)) as [P|P]; [|symmetry; exact P].
    exfalso. apply Hv, nrm_pos, P. }
  destruct H as [H|H]; rewrite (Z _ H); ring.
Qed.

(** The similarity lies in [-1, 1]: the root is taken of a non-negative number. *)
Lemma cosine_range (x y : list R) d : List.length x = List.length y -> cosine RA sqrt x y = Ok d -> 0 <= d <= 2.
Proof.
  intros L H.
  destruct (Forall_Exists_dec (fun a => a = 0) (fun a => Req_EM_T a 0) x) as [F|E].
  { rewrite cosine_zero in H; [discriminate|]. left. intros [a [I N]]. rewrite Forall_forall in F. auto. }
  destruct (Forall_Exists_dec (fun a => a = 0) (fun a => Req_EM_T a 0) y) as [F'|E'].
  { rewrite cosine_zero in H; [discriminate|]. right. intros [a [I N]]. rewrite Forall_forall in F'. auto. }
  assert (Nx : nonzero x) by (apply Exists_exists in E as [a I]; exists a; tauto).
  assert (Ny : nonzero y) by (apply Exists_exists in E' as [a I]; exists a; tauto).
  rewrite cosine_unit in H by assumption. injection H as <-.
  destruct (euclidean_metric (List.length x)) as [A B C D]. unfold dim in *.
  split; [apply A; rewrite ?unit_length; congruence|].
  set (z := map (fun _ => 0) x).
  assert (Hz : forall v, nonzero v -> List.length v = List.length x ->
     euclidean RA sqrt (unit v) z = 1).
  { intros v Nv Lv. unfold euclidean, norm2. change (mul RA) with Rmult. change (sub RA) with Rminus.
    rewrite (sum_map2 (fun a => a * a)). rewrite <- sqrt_1. f_equal.
    pose proof (proj1 (nrm_pos v) Nv) as Hn.
    transitivity (total Rmult v v / (nrm v * nrm v)); [|rewrite nrm_sq; field; rewrite <- nrm_sq; nra].
    unfold unit, z. clear - Lv Hn. set (n := nrm v) in *. clearbody n. revert x Lv.
    induction v as [|a v IH]; intros [|b x] L; simpl in *; try discriminate; [field; lra|].
    rewrite IH by lia. field. lra. }
  eapply Rle_trans; [apply (D _ z); unfold z; rewrite ?unit_length, ?map_length; congruence|].
  rewrite (C z (unit y)); [|unfold z; apply map_length|rewrite unit_length; congruence].
  rewrite !Hz by congruence. lra.
Qed.

(** ** get_metric *)
Section GetMetric.
Variable A : arith.
Variable root : ModelArith.num A -> ModelArith.num A.

Lemma get_metric_callable f kw : get_metric A root (Callable f) kw = Ok f.
Proof. reflexivity. Qed.
Lemma get_metric_names :
  get_metric A root (Name "euclidean") [] = Ok (total_fn A (euclidean A root)) /\
  get_metric A root (Name "manhattan") [] = Ok (total_fn A (manhattan A root)) /\
  get_metric A root (Name "chebyshev") [] = Ok (total_fn A (chebyshev_norm A root)) /\
  get_metric A root (Name "cosine") [] = Ok (cosine A root) /\
  forall o, get_metric A root (Name "minkowski") [("p"%string, OrderValue o)] = Ok (minkowski A root o).
Proof. repeat split. Qed.
Lemma get_metric_unknown arg kw :
  get_metric A root arg kw = Err ValueError <->
  match arg with Callable _ => False | Name s => ~ In s get_supported_metrics | OtherValue => True end.
Proof.
  destruct arg as [f|s|]; simpl.
  - split; [discriminate|tauto].
  - assert (P : forall f, call_plain A f kw <> Err ValueError) by (intros f H; destruct kw; discriminate).
    assert (Q : call_minkowski A root kw <> Err ValueError).
    { destruct kw as [|[k v] [|]]; simpl; try discriminate; destruct v; try discriminate.
      destruct (String.eqb k "p"); discriminate. }
    destruct (String.eqb_spec s "euclidean"); [subst; split; [intro H; apply P in H; tauto|tauto]|].
    destruct (String.eqb_spec s "manhattan"); [subst; split; [intro H; apply P in H; tauto|tauto]|].
    destruct (String.eqb_spec s "minkowski"); [subst; split; [intro H; apply Q in H; tauto|tauto]|].
    destruct (String.eqb_spec s "chebyshev"); [subst; split; [intro H; apply P in H; tauto|tauto]|].
    destruct (String.eqb_spec s "cosine"); [subst; split; [intro H; apply P in H; tauto|tauto]|].
    split; [|reflexivity]. intros _ [H|[H|[H|[H|[H|[]]]]]]; congruence.
  - split; auto.
Qed.
Lemma get_metric_extra s k v kw : In s get_supported_metrics -> s <> "minkowski"%string ->
  get_metric A root (Name s) ((k, v) :: kw) = Err TypeError.
Proof.
  intros [<-|[<-|[<-|[<-|[<-|[]]]]]] H; try reflexivity. congruence.
Qed.
Lemma get_metric_minkowski_p kw : (forall o, kw <> [("p"%string, OrderValue o)]) ->
  get_metric A root (Name "minkowski") kw = Err TypeError.
Proof.
  intro H. simpl. destruct kw as [|[k v] [|]]; simpl; auto; destruct v as [o|]; auto.
  destruct (String.eqb_spec k "p"); auto. subst. exfalso. apply (H o). reflexivity.
Qed.
End GetMetric.

(** ** Other orders *)
(** [p = 0] counts the different entries. *)
Lemma minkowski_zero (x y : list R) :
  minkowski RA sqrt (Ord (A:=RA) 0) x y = Ok (total (fun a b => if Req_EM_T a b then 0 else 1) x y).
Proof.
  unfold minkowski, total_fn, minkowski_norm, norm.
  replace (eq_b RA 0 (ofz RA 1)) with false by (symmetry; apply RA_eqb_false; simpl; lra).
  replace (eq_b RA 0 (ofz RA 2)) with false by (symmetry; apply RA_eqb_false; simpl; lra).
  replace (eq_b RA 0 (zero RA)) with true by (symmetry; apply RA_eqb; reflexivity).
  f_equal. rewrite (sum_map2 (fun a => if eq_b RA a (zero RA) then zero RA else ofz RA 1)).
  apply total_ext. intros a b. change (sub RA a b) with (a - b). destruct (Req_EM_T a b) as [->|H].
  - replace (eq_b RA (b - b) (zero RA)) with true; [reflexivity|]. symmetry. apply RA_eqb. unfold zero. simpl. ring.
  - replace (eq_b RA (a - b) (zero RA)) with false; [reflexivity|]. symmetry. apply RA_eqb_false. unfold zero. simpl. lra.
Qed.
Lemma hamming_metric m : @metric_on (list R) (dim m) (fun x y => total (fun a b => if Req_EM_T a b then 0 else 1) x y).
Proof.
  unfold dim. split.
  - intros. apply total_nonneg. intros. destruct (Req_EM_T a b); lra.
  - intros x y Hx Hy. split.
    + apply total_zero; [| |congruence]; intros a b; destruct (Req_EM_T a b); auto; lra.
    + intros ->. apply total_self. intro a. destruct (Req_EM_T a a); congruence.
  - intros. apply total_sym. intros. destruct (Req_EM_T a b), (Req_EM_T b a); congruence.
  - intros x y z Hx Hy. revert y z m Hx Hy. induction x as [|a x IH]; intros [|b y] [|c z] m Hx Hy Hz; simpl in *; try lra; try lia.
    destruct m as [|m]; [discriminate|]. specialize (IH y z m ltac:(lia) ltac:(lia) ltac:(lia)).
    destruct (Req_EM_T a c), (Req_EM_T a b), (Req_EM_T b c); subst; try lra; congruence.
Qed.

Lemma minkowski_neg p (x y : list R) : p < 0 ->
  minkowski RA sqrt (Ord (A:=RA) p) x y = Ok (power_norm RA p (map2 Rminus x y)).
Proof.
  intro Hp. unfold minkowski, total_fn, minkowski_norm, norm.
  replace (eq_b RA p (ofz RA 1)) with false by (symmetry; apply RA_eqb_false; simpl; lra).
  replace (eq_b RA p (ofz RA 2)) with false by (symmetry; apply RA_eqb_false; simpl; lra).
  replace (eq_b RA p (zero RA)) with false by (symmetry; apply RA_eqb_false; unfold zero; simpl; lra).
  reflexivity.
Qed.
(** [p < 0]: two steps along the axes have length 0, the diagonal has not. *)
Lemma minkowski_negative p : p < 0 -> exists d : R,
  minkowski RA sqrt (Ord (A:=RA) p) [0; 0] [0; 1] = Ok 0 /\
  minkowski RA sqrt (Ord (A:=RA) p) [0; 1] [1; 1] = Ok 0 /\
  minkowski RA sqrt (Ord (A:=RA) p) [0; 0] [1; 1] = Ok d /\ 0 < d.
Proof.
  intro Hp. rewrite !minkowski_neg by exact Hp. unfold power_norm.
  replace (lt_b RA p (zero RA)) with true by (symmetry; unfold zero; simpl; apply Rltb_true; exact Hp).
  cbn [andb map2 existsb].
  assert (T : forall a : R, a = 0 -> eq_b RA a (zero RA) = true) by (intros; apply RA_eqb; assumption).
  assert (F : forall a : R, a <> 0 -> eq_b RA a (zero RA) = false) by (intros; apply RA_eqb_false; assumption).
  rewrite (T (0 - 0)), (T (1 - 1)), (F (0 - 1)) by lra. cbn [orb].
  eexists. split; [reflexivity|]. split; [reflexivity|]. split; [reflexivity|].
  rewrite power_R. apply pw_gt0.
  change (sum_n RA) with (fun l => fold_left Rplus l 0). cbn [map fold_left]. rewrite !power_R, !abs_n_R.
  assert (0 < pw (Rabs (0 - 1)) p) by (apply pw_gt0; rewrite Rabs_left; lra). lra.
Qed.

Lemma metric_pseudo {T} (P : T -> Prop) d : metric_on P d -> pseudo_metric_on P d.
Proof. intros [A B C D]. split; auto. intros x Hx. apply B; auto. Qed.
