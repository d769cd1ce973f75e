(** Model of src/tdamapper/cover.py.

    [get_metric] is applied by the caller (ModelMetrics): the covers take the
    resulting function. Ids of data points are [nat]; inside the tree they are
    [Z], because queries carry the id [-1]. *)
From Verif Require Import Base ModelCore ModelVPTree ModelArith.
Open Scope nat_scope.

Section Pullback.
Context {S T D : Type}.
(** cover.py:32-74 [_Pullback]. *)
Definition pullback (f : S -> T) (dist : T -> T -> D) (x y : S) : D := dist (f x) (f y).
End Pullback.

Section Covers.
Context {T D : Type}.
Variables leb ltb : D -> D -> bool.
Variable gap : D -> D -> D.
Variable zero : D.
Variable metric : T -> T -> D.

(** cover.py:77-81 [_snd], and the metric given to the tree (cover.py:145, 246). *)
Definition tree_metric : Z * T -> Z * T -> D := pullback snd metric.

(** [list(enumerate(X))] (cover.py:142, 243). *)
Definition enumerate (X : list T) : list (Z * T) := combine (map Z.of_nat (seq 0 (length X))) X.

(** cover.py:169, 267: the ids of the entries found. *)
Definition ids_of (neighs : list (Z * T)) : list nat := map (fun p => Z.to_nat (fst p)) neighs.

(** [a or b] for an optional number: [None] and [0] are falsy. *)
Definition num_or (a : option D) (b : D) : D :=
  match a with None => b | Some r => if leb r zero && leb zero r then b else r end.
Definition nat_or (a : option nat) (b : nat) : nat :=
  match a with None => b | Some 0 => b | Some n => n end.

(** Tree parameters common to the covers (cover.py:116-119). *)
Record tree_params : Type := mktp {
  tp_kind : vkind;
  tp_pivoting : pivoting;
  tp_rng : nat -> nat }.

(** cover.py:111-127 [BallCover.__init__]. *)
Record ball_cover : Type := mkball {
  bc_radius : D;
  bc_tree : tree_params;
  bc_leaf_capacity : nat;
  bc_leaf_radius : option D }.

(** cover.py:129-151 [BallCover.fit]. *)
Definition ball_fit_tree (c : ball_cover) (X : list T) : res (vpt (Z * T) D) :=
  vptree tree_metric leb ltb zero (tp_kind (bc_tree c))
    (mkvp (bc_leaf_capacity c) (num_or (bc_leaf_radius c) (bc_radius c))
       (tp_pivoting (bc_tree c)) (tp_rng (bc_tree c)))
    (enumerate X).

(** cover.py:153-169 [BallCover.search]. *)
Definition ball_query (c : ball_cover) (t : vpt (Z * T) D) (x : T) : res (list nat) :=
  do neighs <- ball_search tree_metric leb ltb gap t ((-1)%Z, x) (bc_radius c) false;
  Ok (ids_of neighs).

(** [fit] returns the search function of the fitted object. *)
Definition ball_fit (c : ball_cover) (X : list T) : res (T -> res (list nat)) :=
  do t <- ball_fit_tree c X; Ok (ball_query c t).

(** cover.py:171-182 [BallCover.apply]. *)
Definition ball_apply (c : ball_cover) (X : list T) : gen (list nat) := proximity_net (ball_fit c) X.

(** cover.py:212-228 [KNNCover.__init__], [neighbors >= 0]. *)
Record knn_cover : Type := mkknn {
  kc_neighbors : nat;
  kc_tree : tree_params;
  kc_leaf_capacity : option nat;
  kc_leaf_radius : D }.

(** cover.py:230-252 [KNNCover.fit]. *)
Definition knn_fit_tree (c : knn_cover) (X : list T) : res (vpt (Z * T) D) :=
  vptree tree_metric leb ltb zero (tp_kind (kc_tree c))
    (mkvp (nat_or (kc_leaf_capacity c) (kc_neighbors c)) (kc_leaf_radius c)
       (tp_pivoting (kc_tree c)) (tp_rng (kc_tree c)))
    (enumerate X).

(** cover.py:254-267 [KNNCover.search]. *)
Definition knn_query (c : knn_cover) (t : vpt (Z * T) D) (x : T) : res (list nat) :=
  do neighs <- knn_search tree_metric leb ltb gap zero t ((-1)%Z, x) (kc_neighbors c);
  Ok (ids_of neighs).

Definition knn_fit (c : knn_cover) (X : list T) : res (T -> res (list nat)) :=
  do t <- knn_fit_tree c X; Ok (knn_query c t).

(** cover.py:269-280 [KNNCover.apply]. *)
Definition knn_apply (c : knn_cover) (X : list T) : gen (list nat) := proximity_net (knn_fit c) X.
End Covers.
Arguments ball_cover : clear implicits.
Arguments knn_cover : clear implicits.
Arguments mkball {D}.
Arguments mkknn {D}.

(** *** Cubical covers. A point is the list of its coordinates; all points of a
    dataset have the same number of coordinates, at least one (numpy raises
    otherwise). [fin_eps] is [np.finfo(np.float64).eps] (cover.py:363). *)
Section Cubical.
Variable A : arith.
Notation num := (num A).
Notation vec := (vec A).
Notation gap := (abs_diff A).
Variable fin_eps : num.

(** cover.py:317-331 [BaseCubicalCover.__init__]. *)
Record cubical : Type := mkcub {
  cu_n_intervals : Z;
  cu_overlap_frac : option num;
  cu_tree : tree_params;
  cu_leaf_capacity : nat;
  cu_leaf_radius : option num }.

(** Attributes set by [fit] (cover.py:393) that the search uses. *)
Record bounds : Type := mkbounds { b_n : Z; b_min : vec; b_delta : vec }.

(** cover.py:340-342 [_get_overlap_frac]. *)
Definition get_overlap_frac (dim : nat) (overlap_vol_frac : num) : res num :=
  match dim with
  | 0 => Err ZeroDivisionError
  | _ =>
      let beta := pow A (sub A (ofz A 1) overlap_vol_frac) (div A (ofz A 1) (ofz A (Z.of_nat dim))) in
      Ok (sub A (ofz A 1) (div A (ofz A 1) (sub A (ofz A 2) beta)))
  end.

(** cover.py:351-352 [_gamma_n]. *)
Definition gamma_n (b : bounds) (x : vec) : vec :=
  map2 (fun u d => div A (mul A (ofz A (b_n b)) u) d) (map2 (sub A) x (b_min b)) (b_delta b).

(** cover.py:354-355 [_gamma_n_inv]. *)
Definition gamma_n_inv (b : bounds) (x : vec) : vec :=
  map2 (fun m u => add A m (div A u (ofz A (b_n b)))) (b_min b) (map2 (mul A) (b_delta b) x).

(** cover.py:344-345 [_offset]. The floats are integers: [Z]. *)
Definition offset (b : bounds) (x : vec) : list Z :=
  map (fun g => Z.min (b_n b - 1) (floorz A g)) (gamma_n b x).

(** cover.py:347-349 [_phi]. *)
Definition half : num := div A (ofz A 1) (ofz A 2).
Definition phi (b : bounds) (x : vec) : vec :=
  gamma_n_inv b (map (fun o => add A half (ofz A o)) (offset b x)).

(** [np.min(X, axis=0)], [np.max(X, axis=0)] for a non-empty list of rows. *)
Definition fold_rows (f : num -> num -> num) (x0 : vec) (X : list vec) : vec :=
  fold_left (map2 f) X x0.

(** cover.py:357-368 [_get_bounds]. *)
Definition get_bounds (n : Z) (X : list vec) : res bounds :=
  match X with
  | [] => Err ValueError
  | x0 :: X' =>
      let mn := fold_rows (min_n A) x0 X' in
      let mx := fold_rows (max_n A) x0 X' in
      let delta := map2 (sub A) mx mn in
      Ok (mkbounds n mn
            (map (fun d => if le_b A (sub A (zero A) fin_eps) d && le_b A d fin_eps
                           then ofz A n else d) delta))
  end.

(** cover.py:370-404 [BaseCubicalCover.fit] on a non-empty dataset: the bounds
    and the search function of the inner [BallCover]. The warning for
    [overlap_frac > 0.5] is in [ModelWarn]. *)
Definition cubical_fit_state (c : cubical) (X : list vec) : res (bounds * (vec -> res (list nat))) :=
  do overlap <- match cu_overlap_frac c with
                | None => get_overlap_frac (length (hd [] X)) half
                | Some o => Ok o
                end;
  if le_b A overlap (zero A) then Err ValueError
  else
    do b <- get_bounds (cu_n_intervals c) X;
    let den := sub A (ofz A 2) (mul A (ofz A 2) overlap) in
    if eq_b A den (zero A) then Err ZeroDivisionError
    else
      let radius := div A (ofz A 1) den in
      do search <- ball_fit (le_b A) (lt_b A) gap (zero A)
        (pullback (gamma_n b) (chebyshev A))
        (mkball radius (cu_tree c) (cu_leaf_capacity c) (cu_leaf_radius c)) X;
      Ok (b, search).

(** cover.py:406-417 [search]. *)
Definition cubical_query (s : bounds * (vec -> res (list nat))) (x : vec) : res (list nat) :=
  snd s (phi (fst s) x).

(** [fit] of a new object. On an empty dataset nothing is set (cover.py:380-381),
    a later search does not find its attributes. *)
Definition cubical_fit (c : cubical) (X : list vec) : res (vec -> res (list nat)) :=
  match X with
  | [] => Ok (fun _ => Err AttributeError)
  | _ => do s <- cubical_fit_state c X; Ok (cubical_query s)
  end.

(** cover.py:467-478 [ProximityCubicalCover.apply]. *)
Definition proximity_cubical_apply (c : cubical) (X : list vec) : gen (list nat) :=
  proximity_net (cubical_fit c) X.

(** Keys of the dictionary of landmarks: tuples of cell numbers. *)
Definition cell_eqb (a b : list Z) : bool := if list_eq_dec Z.eq_dec a b then true else false.

(** cover.py:525-533 [_landmarks], with cover.py:333-338 [_get_center]: the dictionary, newest entry first. *)
Definition landmarks (b : bounds) (X : list vec) : list (list Z * vec) :=
  fold_left (fun lm x => if existsb (fun p => cell_eqb (fst p) (offset b x)) lm then lm
                         else (offset b x, x) :: lm) X [].

(** cover.py:550-554: [popitem] takes the newest entry first. *)
Fixpoint landmark_loop (search : vec -> res (list nat)) (lm : list (list Z * vec)) : gen (list nat) :=
  match lm with
  | [] => mkgen [] None
  | (_, x) :: rest =>
      match search x with
      | Err e => mkgen [] (Some e)
      | Ok [] => landmark_loop search rest
      | Ok neigh_ids =>
          let r := landmark_loop search rest in mkgen (neigh_ids :: yields r) (stops r)
      end
  end.

(** cover.py:535-554 [StandardCubicalCover.apply] on a new object. *)
Definition standard_cubical_apply (c : cubical) (X : list vec) : gen (list nat) :=
  match X with
  | [] => mkgen [] None
  | _ => match cubical_fit_state c X with
         | Err e => mkgen [] (Some e)
         | Ok s => landmark_loop (cubical_query s) (landmarks (fst s) X)
         end
  end.

(** cover.py:607-622, 650-661 [CubicalCover._get_cubical_cover], [apply]. *)
Inductive cubical_algorithm : Type := Proximity | Standard | OtherAlgorithm.
Definition cubical_apply (alg : cubical_algorithm) (c : cubical) (X : list vec) : gen (list nat) :=
  match alg with
  | Proximity => proximity_cubical_apply c X
  | Standard => standard_cubical_apply c X
  | OtherAlgorithm => mkgen [] (Some ValueError)
  end.

(** cover.py:624-648 [CubicalCover.fit], [search]. *)
Definition cubical_cover_fit (alg : cubical_algorithm) (c : cubical) (X : list vec)
  : res (vec -> res (list nat)) :=
  match alg with
  | OtherAlgorithm => Err ValueError
  | _ => cubical_fit c X
  end.
End Cubical.
Arguments mkcub {A}.
