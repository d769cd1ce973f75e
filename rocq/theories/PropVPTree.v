(** vp-trees: C18 - C24. *)
From Coq Require Import Reals Lra.
From Flocq Require Import Core.
From Verif Require Import Base ModelQuickselect ModelVPTree SpecVPTree SpecMetric VPProp.
Open Scope nat_scope.

(** ** C18: flat ball search *)
Theorem C18_flat_ball_search : forall {T : Type} (d : T -> T -> R) (par : vparams R) (X : list T),
  pseudo_metric d -> 1 <= leaf_capacity par -> X <> [] ->
  exists t, vptree d Rleb Rltb 0%R Flat par X = Ok t /\
    forall q eps inclusive, exists res,
      ball_search d Rleb Rltb Rgap t q eps inclusive = Ok res /\
      ball_answer d Rleb Rltb X q eps inclusive res.
Proof. exact @flat_ball_real. Qed.
Print Assumptions C18_flat_ball_search.

(** The same for any ordered distances for which pruning is safe. *)
Theorem C18_flat_ball_search_any : forall {T D : Type} (metric : T -> T -> D) (leb ltb : D -> D -> bool)
    (gap : D -> D -> D) (zero : D) (par : vparams D) (X : list T),
  order_ok leb ltb gap -> 1 <= leaf_capacity par -> X <> [] ->
  exists t, vptree metric leb ltb zero Flat par X = Ok t /\
    forall q eps inclusive, prune_safe metric leb ltb gap X q ->
    exists res, ball_search metric leb ltb gap t q eps inclusive = Ok res /\
      ball_answer metric leb ltb X q eps inclusive res.
Proof. exact @flat_ball_exact. Qed.
Print Assumptions C18_flat_ball_search_any.

(** Without any assumption on the metric: no wrong entry is returned, and a missed
    entry lies behind a sphere computed to be farther than [eps]. *)
Theorem C18_flat_ball_search_no_metric : forall {T D : Type} (metric : T -> T -> D) (leb ltb : D -> D -> bool)
    (gap : D -> D -> D) (zero : D) (par : vparams D) (X : list T),
  order_ok leb ltb gap -> 1 <= leaf_capacity par -> X <> [] ->
  exists t, vptree metric leb ltb zero Flat par X = Ok t /\
    forall q eps inclusive, exists res missed,
      ball_search metric leb ltb gap t q eps inclusive = Ok res /\
      Permutation (res ++ missed) (filter (in_ball metric leb ltb q eps inclusive) X) /\
      Forall (cut_off metric leb ltb gap X q (fun g => leb g eps = false)) missed.
Proof. exact @flat_ball_general. Qed.
Print Assumptions C18_flat_ball_search_no_metric.

(** ** C19: hierarchical ball search *)
Theorem C19_hier_ball_search : forall {T : Type} (d : T -> T -> R) (par : vparams R) (X : list T),
  pseudo_metric d -> 1 <= leaf_capacity par ->
  exists t, vptree d Rleb Rltb 0%R Hierarchical par X = Ok t /\
    forall q eps inclusive, exists res,
      ball_search d Rleb Rltb Rgap t q eps inclusive = Ok res /\
      ball_answer d Rleb Rltb X q eps inclusive res.
Proof. exact @hier_ball_real. Qed.
Print Assumptions C19_hier_ball_search.

Theorem C19_hier_ball_search_any : forall {T D : Type} (metric : T -> T -> D) (leb ltb : D -> D -> bool)
    (gap : D -> D -> D) (zero : D) (par : vparams D) (X : list T),
  order_ok leb ltb gap -> 1 <= leaf_capacity par ->
  exists t, vptree metric leb ltb zero Hierarchical par X = Ok t /\
    forall q eps inclusive, (forall v, In v X -> metric v q = metric q v) ->
    prune_safe metric leb ltb gap X q ->
    exists res, ball_search metric leb ltb gap t q eps inclusive = Ok res /\
      ball_answer metric leb ltb X q eps inclusive res.
Proof. exact @hier_ball_exact. Qed.
Print Assumptions C19_hier_ball_search_any.

(** ** C20, C21: k nearest neighbours *)
Theorem C20_flat_knn_search : forall {T : Type} (d : T -> T -> R) (par : vparams R) (X : list T),
  pseudo_metric d -> 1 <= leaf_capacity par -> X <> [] ->
  exists t, vptree d Rleb Rltb 0%R Flat par X = Ok t /\
    forall q k, exists res, knn_search d Rleb Rltb Rgap 0%R t q k = Ok res /\
      knn_answer d Rleb X q k res.
Proof. exact @flat_knn_real. Qed.
Print Assumptions C20_flat_knn_search.

Theorem C20_flat_knn_search_any : forall {T D : Type} (metric : T -> T -> D) (leb ltb : D -> D -> bool)
    (gap : D -> D -> D) (zero : D) (par : vparams D) (X : list T),
  order_ok leb ltb gap -> 1 <= leaf_capacity par -> X <> [] ->
  exists t, vptree metric leb ltb zero Flat par X = Ok t /\
    forall q k, prune_safe metric leb ltb gap X q ->
    exists res, knn_search metric leb ltb gap zero t q k = Ok res /\ knn_answer metric leb X q k res.
Proof. exact @flat_knn_exact. Qed.
Print Assumptions C20_flat_knn_search_any.

Theorem C21_hier_knn_search : forall {T : Type} (d : T -> T -> R) (par : vparams R) (X : list T),
  pseudo_metric d -> 1 <= leaf_capacity par ->
  exists t, vptree d Rleb Rltb 0%R Hierarchical par X = Ok t /\
    forall q k, exists res, knn_search d Rleb Rltb Rgap 0%R t q k = Ok res /\
      knn_answer d Rleb X q k res.
Proof. exact @hier_knn_real. Qed.
Print Assumptions C21_hier_knn_search.

Theorem C21_hier_knn_search_any : forall {T D : Type} (metric : T -> T -> D) (leb ltb : D -> D -> bool)
    (gap : D -> D -> D) (zero : D) (par : vparams D) (X : list T),
  order_ok leb ltb gap -> 1 <= leaf_capacity par ->
  exists t, vptree metric leb ltb zero Hierarchical par X = Ok t /\
    forall q k, (forall v, In v X -> metric v q = metric q v) ->
    prune_safe metric leb ltb gap X q ->
    exists res, knn_search metric leb ltb gap zero t q k = Ok res /\ knn_answer metric leb X q k res.
Proof. exact @hier_knn_exact. Qed.
Print Assumptions C21_hier_knn_search_any.

(** ** C22: parameters do not change answers *)
Theorem C22_parameters_irrelevant : forall {T : Type} (d : T -> T -> R) (kind kind' : vkind)
    (par par' : vparams R) (X : list T),
  pseudo_metric d -> X <> [] ->
  1 <= leaf_capacity par -> 1 <= leaf_capacity par' ->
  kind <> OtherKind -> kind' <> OtherKind ->
  exists t t', vptree d Rleb Rltb 0%R kind par X = Ok t /\ vptree d Rleb Rltb 0%R kind' par' X = Ok t' /\
    (forall q eps inclusive, exists res res',
       ball_search d Rleb Rltb Rgap t q eps inclusive = Ok res /\
       ball_search d Rleb Rltb Rgap t' q eps inclusive = Ok res' /\ Permutation res res') /\
    (forall q k, exists res res',
       knn_search d Rleb Rltb Rgap 0%R t q k = Ok res /\
       knn_search d Rleb Rltb Rgap 0%R t' q k = Ok res' /\
       Permutation (map (d q) res) (map (d q) res')).
Proof. exact @parameters_irrelevant. Qed.
Print Assumptions C22_parameters_irrelevant.

(** ** C23: rounded arithmetic *)
Theorem C23_rounded_exact : forall {T : Type} (d : T -> T -> R) (rnd : R -> R), rounding rnd ->
  forall (kind : vkind) (par : vparams R) (X : list T),
  (forall x y, representable rnd (d x y)) -> symmetric d -> triangle_ineq d ->
  1 <= leaf_capacity par -> X <> [] -> kind <> OtherKind ->
  exists t, vptree d Rleb Rltb 0%R kind par X = Ok t /\
    (forall q eps inclusive, exists res,
      ball_search d Rleb Rltb (rgap rnd) t q eps inclusive = Ok res /\
      ball_answer d Rleb Rltb X q eps inclusive res) /\
    (forall q k, exists res,
      knn_search d Rleb Rltb (rgap rnd) 0%R t q k = Ok res /\ knn_answer d Rleb X q k res).
Proof. exact @rounded_exact. Qed.
Print Assumptions C23_rounded_exact.

Theorem C23_ball_search_slack : forall {T : Type} (d : T -> T -> R) (rnd : R -> R), rounding rnd ->
  forall (kind : vkind) (par : vparams R) (X : list T) (delta : R),
  symmetric d -> (forall a b c, d a c <= d a b + d b c + delta)%R ->
  1 <= leaf_capacity par -> X <> [] -> kind <> OtherKind ->
  exists t, vptree d Rleb Rltb 0%R kind par X = Ok t /\
    forall q eps inclusive, representable rnd eps -> exists res missed,
      ball_search d Rleb Rltb (rgap rnd) t q eps inclusive = Ok res /\
      Permutation (res ++ missed) (filter (in_ball d Rleb Rltb q eps inclusive) X) /\
      forall x, In x missed -> (eps - delta < d q x)%R.
Proof. exact @slack_ball. Qed.
Print Assumptions C23_ball_search_slack.

Theorem C23_knn_search_slack : forall {T : Type} (d : T -> T -> R) (rnd : R -> R), rounding rnd ->
  forall (kind : vkind) (par : vparams R) (X : list T) (delta : R),
  (forall x y, representable rnd (d x y)) ->
  symmetric d -> (forall a b c, d a c <= d a b + d b c + delta)%R ->
  1 <= leaf_capacity par -> X <> [] -> kind <> OtherKind ->
  exists t, vptree d Rleb Rltb 0%R kind par X = Ok t /\
    forall q k, exists res rest,
      knn_search d Rleb Rltb (rgap rnd) 0%R t q k = Ok res /\
      length res = Nat.min k (length X) /\ Permutation X (res ++ rest) /\
      forall a b, In a res -> In b rest -> (d q a <= Rmax (d q b) (rnd (d q b + delta)))%R.
Proof. exact @slack_knn. Qed.
Print Assumptions C23_knn_search_slack.

(** IEEE binary64 rounding (to nearest, ties to even) is a [rounding]. *)
Theorem C23_binary64_is_rounding : rounding (round radix2 (FLT_exp (-1074) 53) ZnearestE).
Proof.
  split.
  - intros x y H. apply round_le; [apply FLT_exp_valid; reflexivity|apply valid_rnd_N|exact H].
  - intro x. apply round_NE_opp.
Qed.
Print Assumptions C23_binary64_is_rounding.

(** *** Examples on integers *)
Definition dZ (a b : Z) : Z := Z.abs (a - b).
Definition parZ (cap : nat) (p : pivoting) : vparams Z := mkvp cap 0%Z p (fun c => 7 * c + 3).
Definition data : list Z := [5; 0; 9; 2; 7; 2; 11; 4; 1; 8]%Z.

Lemma Z_order : order_ok Z.leb Z.ltb (fun a b => Z.abs (a - b)).
Proof.
  split; intros.
  - rewrite !Z.leb_le. lia.
  - rewrite Z.leb_le in *. lia.
  - destruct (Z.ltb_spec a b), (Z.leb_spec b a); simpl; auto; lia.
  - apply Z.leb_le. lia.
Qed.

Lemma Z_safe X q : prune_safe dZ Z.leb Z.ltb (fun a b => Z.abs (a - b))%Z X q.
Proof.
  intros v y x _ _ _ [[H1 H2]|[H1 H2]]; unfold dZ in *; apply Z.leb_le;
    try apply Z.leb_le in H1; try apply Z.ltb_lt in H1; apply Z.leb_le in H2; lia.
Qed.

Definition run_ball kind par X q eps incl : res (list Z) :=
  do t <- vptree dZ Z.leb Z.ltb 0%Z kind par X;
  ball_search dZ Z.leb Z.ltb (fun a b => Z.abs (a - b))%Z t q eps incl.
Definition run_knn kind par X q k : res (list Z) :=
  do t <- vptree dZ Z.leb Z.ltb 0%Z kind par X;
  knn_search dZ Z.leb Z.ltb (fun a b => Z.abs (a - b))%Z 0%Z t q k.

Example C18_example : run_ball Flat (parZ 1 Random) data 3%Z 2%Z true = Ok [2; 2; 4; 1; 5]%Z /\
  run_ball Flat (parZ 1 Furthest) data 3%Z 2%Z false = Ok [4; 2; 2]%Z /\
  run_ball Flat (parZ 2 Disabled) data 20%Z 2%Z false = Ok [].
Proof. vm_compute. auto. Qed.
Example C18_example_hypotheses :
  1 <= leaf_capacity (parZ 1 Random) /\ data <> [] /\
  order_ok Z.leb Z.ltb (fun a b => Z.abs (a - b)) /\
  prune_safe dZ Z.leb Z.ltb (fun a b => Z.abs (a - b))%Z data 3%Z.
Proof. split; [simpl; lia|]. split; [discriminate|]. split; [exact Z_order|apply Z_safe]. Qed.
Example C18_example_pseudo_metric : pseudo_metric (fun x y : R * R => Rabs (fst x - fst y)).
Proof.
  split; intros.
  - intros. rewrite Rminus_diag_eq by reflexivity. apply Rabs_R0.
  - intros x y. apply Rabs_minus_sym.
  - intros x y z. replace (fst x - fst z)%R with ((fst x - fst y) + (fst y - fst z))%R by lra. apply Rabs_triang.
Qed.
Example C19_example : run_ball Hierarchical (parZ 1 Random) data 3%Z 2%Z true = Ok [2; 4; 2; 1; 5]%Z /\
  run_ball Hierarchical (parZ 1 Furthest) [] 3%Z 2%Z false = Ok [].
Proof. vm_compute. auto. Qed.
Example C20_example : run_knn Flat (parZ 1 Random) data 3%Z 4 = Ok [1; 2; 2; 4]%Z /\
  run_knn Flat (parZ 1 Random) data 3%Z 0 = Ok [].
Proof. vm_compute. auto. Qed.
Example C21_example : run_knn Hierarchical (parZ 1 Furthest) data 3%Z 4 = Ok [1; 2; 2; 4]%Z /\
  run_knn Hierarchical (parZ 1 Furthest) [4; 6]%Z 3%Z 5 = Ok [6; 4]%Z.
Proof. vm_compute. auto. Qed.
(** A distance satisfying the triangle inequality only up to 1 (halves rounded
    down): the search misses the entry 4 at distance exactly [eps]. *)
Theorem C23_exact_without_triangle_refuted :
  exists (d : Z -> Z -> Z) X q eps t res,
    (forall a b, d a b = d b a) /\ (forall a b c, d a c <= d a b + d b c + 1)%Z /\
    vptree d Z.leb Z.ltb 0%Z Flat (parZ 1 Disabled) X = Ok t /\
    ball_search d Z.leb Z.ltb (fun a b => Z.abs (a - b))%Z t q eps true = Ok res /\
    In 4%Z X /\ in_ball d Z.leb Z.ltb q eps true 4%Z = true /\ ~ In 4%Z res.
Proof.
  exists (fun a b => Z.abs (a - b) / 2)%Z, [0; 4; 5]%Z, 1%Z, 1%Z.
  eexists. eexists. split; [|split; [|split; [vm_compute; reflexivity|]]].
  - intros a b. f_equal. lia.
  - intros a b c. assert (H := Z.abs_triangle (a - b) (b - c)). replace (a - b + (b - c))%Z with (a - c)%Z in H by lia.
    pose proof (Z.div_mod (Z.abs (a - b)) 2). pose proof (Z.mod_pos_bound (Z.abs (a - b)) 2).
    pose proof (Z.div_mod (Z.abs (b - c)) 2). pose proof (Z.mod_pos_bound (Z.abs (b - c)) 2).
    pose proof (Z.div_mod (Z.abs (a - c)) 2). pose proof (Z.mod_pos_bound (Z.abs (a - c)) 2). lia.
  - split; [vm_compute; reflexivity|]. split; [simpl; auto|]. split; [reflexivity|].
    simpl. lia.
Qed.
Print Assumptions C23_exact_without_triangle_refuted.

(** ** C24: the empty dataset *)
Theorem C24_hier_empty : forall {T D : Type} (metric : T -> T -> D) (leb ltb : D -> D -> bool)
    (gap : D -> D -> D) (zero : D) (par : vparams D),
  exists t, vptree metric leb ltb zero Hierarchical par [] = Ok t /\
    forall q eps inclusive k, ball_search metric leb ltb gap t q eps inclusive = Ok [] /\
      knn_search metric leb ltb gap zero t q k = Ok [].
Proof.
  intros. eexists. split; [reflexivity|]. intros q eps inclusive k. split; [reflexivity|].
  destruct k; reflexivity.
Qed.
Print Assumptions C24_hier_empty.

Theorem C24_flat_empty_raises : forall {T D : Type} (metric : T -> T -> D) (leb ltb : D -> D -> bool)
    (gap : D -> D -> D) (zero : D) (par : vparams D),
  exists t, vptree metric leb ltb zero Flat par [] = Ok t /\
    forall q eps inclusive k, ball_search metric leb ltb gap t q eps inclusive = Err IndexError /\
      knn_search metric leb ltb gap zero t q k = Err IndexError.
Proof. intros. eexists. split; [reflexivity|]. intros. split; reflexivity. Qed.
Print Assumptions C24_flat_empty_raises.

(** [kind] must be one of the two names. *)
Theorem C22_unknown_kind : forall {T D : Type} (metric : T -> T -> D) (leb ltb : D -> D -> bool)
    (zero : D) (par : vparams D) (X : list T),
  vptree metric leb ltb zero OtherKind par X = Err ValueError.
Proof. reflexivity. Qed.
Print Assumptions C22_unknown_kind.

(** [leaf_capacity = 0] is accepted but breaks both trees. *)
Theorem C18_leaf_capacity_zero_refuted :
  exists X : list Z, X <> [] /\
    vptree dZ Z.leb Z.ltb 0%Z Flat (parZ 0 Disabled) X = Err IndexError.
Proof. exists [0; 1]%Z. split; [discriminate|]. reflexivity. Qed.
Print Assumptions C18_leaf_capacity_zero_refuted.

Theorem C19_leaf_capacity_zero_refuted :
  exists (X : list Z) q eps res,
    run_ball Hierarchical (parZ 0 Disabled) X q eps true = Ok res /\
    ~ ball_answer dZ Z.leb Z.ltb X q eps true res.
Proof.
  exists [0]%Z, 0%Z, 0%Z, [0; 0]%Z. split; [reflexivity|].
  intro H. apply Permutation_length in H. discriminate H.
Qed.
Print Assumptions C19_leaf_capacity_zero_refuted.
