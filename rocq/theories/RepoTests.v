(** The unit tests of the project (/repo/tests), run on the model in double
    precision. They are tests of the model, not proofs of properties: they show
    that the model gives the results that the authors expect of the code.
    Left out are random data, the digits and iris datasets, scikit-learn's
    clusterings and estimator checks, and tests that only draw. *)
From Coq Require Import String SpecFloat QArith Qround.
From Verif Require Import Base ModelUnionFind ModelHeap ModelQuickselect ModelCore ModelVPTree ModelArith ModelMetrics ModelCover ModelDraw ModelPlotly PropPlot.

(** [FA] with [floor], and with the one power that is needed, [0.5 ** (1 / 2)]. *)
Definition f_floor (x : spec_float) : Z :=
  match x with
  | S754_finite s m e =>
      let z := if s then Z.neg m else Z.pos m in if (0 <=? e)%Z then (z * 2 ^ e)%Z else (z / 2 ^ (- e))%Z
  | _ => 0%Z
  end.
Definition TA : arith := {|
  num := spec_float; add := add FA; sub := sub FA; mul := mul FA; div := div FA;
  pow := fun a _ => fsqrt a; ofz := ofz FA; floorz := f_floor; le_b := le_b FA; lt_b := lt_b FA |}.
Definition dec (z : Z) (digits : nat) : spec_float := div FA (ofz FA z) (ofz FA (10 ^ Z.of_nat digits)).
Definition t_gap (a b : spec_float) : spec_float := SFabs (sub FA a b).
Definition fl (n : nat) : spec_float := ofz FA (Z.of_nat n).
Definition t_eps : spec_float := div FA (ofz FA 1) (ofz FA (2 ^ 52)).

(** tests/test_utils.py:24-67. *)
Definition linspace (num : nat) : list spec_float :=
  map (fun i => if S i =? num then fl 1 else mul FA (fl i) (div FA (fl 1) (fl (num - 1)))) (seq 0 num).
Definition simple : list (list spec_float) := [[fl 0; fl 1]; [dec 11 1; fl 0]; [fl 0; fl 0]; [dec 11 1; fl 1]].
Definition two_lines (num : nat) : list (list spec_float) :=
  (map (fun x => [x; fl 0]) (linspace num) ++ map (fun x => [x; fl 1]) (linspace num))%list.
Definition grid (num : nat) : list (list spec_float) := flat_map (fun x => map (fun y => [x; y]) (linspace num)) (linspace num).

Definition t_euclidean : list spec_float -> list spec_float -> spec_float := euclidean FA fsqrt.
Definition t_manhattan : list spec_float -> list spec_float -> spec_float := manhattan FA fsqrt.

(** Defaults of the covers (cover.py:111-127, 212-228, 317-331). *)
Definition tree0 : tree_params := mktp Flat Disabled (fun _ => 0).
Definition ball (radius : spec_float) (X : list (list spec_float)) : gen (list nat) :=
  ball_apply (le_b FA) (lt_b FA) t_gap (zero FA) t_euclidean (mkball radius tree0 1 None) X.
Definition knn (k : nat) (X : list (list spec_float)) : gen (list nat) :=
  knn_apply (le_b FA) (lt_b FA) t_gap (zero FA) t_euclidean (mkknn (D := spec_float) k tree0 None (zero FA)) X.
Definition cubes (alg : cubical_algorithm) (n : Z) (overlap : option spec_float) (X : list (list spec_float)) : gen (list nat) :=
  cubical_apply TA t_eps alg (@mkcub TA n overlap tree0 1 None) X.

(** tests/test_unit_cover.py:27-63: every point is in a set; the number of
    components of the sets that share points, with the union-find of the project. *)
Definition covered (n : nat) (charts : list (list nat)) : bool :=
  forallb (fun i => existsb (existsb (Nat.eqb i)) charts) (seq 0 n).
Definition charts_of (charts : list (list nat)) (i : nat) : list nat :=
  map fst (filter (fun p => existsb (Nat.eqb i) (snd p)) (combine (seq 0 (length charts)) charts)).
Fixpoint unite (l : list nat) (u : uf nat) : res (uf nat) :=
  match l with
  | a :: ((b :: _) as rest) => do r <- uf_union Nat.eqb u a b; unite rest (snd r)
  | _ => Ok u
  end.
Fixpoint unite_all (ls : list (list nat)) (u : uf nat) : res (uf nat) :=
  match ls with
  | [] => Ok u
  | l :: rest => do u' <- unite l u; unite_all rest u'
  end.
Fixpoint find_all (l : list nat) (u : uf nat) : res (list nat) :=
  match l with
  | [] => Ok []
  | x :: rest => do r <- uf_find Nat.eqb u x; do rs <- find_all rest (snd r); Ok (fst r :: rs)
  end.
Definition roots (items : list nat) (links : list (list nat)) : res nat :=
  do u <- unite_all links (uf_init Nat.eqb (Reusable items)); do rs <- find_all items u; Ok (length (nodup Nat.eq_dec rs)).
Definition components (n : nat) (charts : list (list nat)) : res nat :=
  roots (seq 0 (length charts)) (map (charts_of charts) (seq 0 n)).
(** tests/test_unit_cover.py:162-174 [test_cover]: number of sets and of components. *)
Definition test_cover (n : nat) (g : gen (list nat)) : option exn * bool * bool * nat * res nat :=
  (stops g, covered n (yields g), forallb (fun s => negb (length s =? 0)) (yields g), length (yields g), components n (yields g)).
Definition passes (n charts comps : nat) (g : gen (list nat)) : Prop := test_cover n g = (None, true, true, charts, Ok comps).
Ltac run := unfold passes; match goal with |- _ = ?b => vm_cast_no_check (eq_refl b) end.
Ltac parts := cbv zeta; repeat match goal with |- _ /\ _ => split end.

(** ** tests/test_unit_cover.py:66-83 [test_cover_empty]. *)
Example test_cover_empty :
  trivial_cover (@nil (list spec_float)) = mkgen [] None /\ ball (dec 1 1) [] = mkgen [] None /\ knn 1 [] = mkgen [] None /\
  cubes Standard 2 (Some (dec 5 1)) [] = mkgen [] None /\ cubes Proximity 2 (Some (dec 5 1)) [] = mkgen [] None.
Proof. parts; run. Qed.

(** ** tests/test_unit_cover.py:86-174 [test_cover]. The two lines have 30 points each
    instead of 1000, and fewer neighbors are asked for where the test relates them to that number;
    the grid has 7 x 7 points instead of 10 x 10 (at full size the results are those of the test, too,
    but take an hour to compute). *)
Example test_cover_simple :
  passes 4 1 1 (trivial_cover simple) /\
  passes 4 4 4 (ball (dec 9 1) simple) /\ passes 4 2 2 (ball (dec 11 1) simple) /\ passes 4 1 1 (ball (dec 15 1) simple) /\
  passes 4 4 4 (knn 1 simple) /\ passes 4 2 2 (knn 2 simple) /\ passes 4 2 1 (knn 3 simple) /\
  passes 4 4 4 (cubes Standard 2 (Some (dec 1 1)) simple) /\ passes 4 4 4 (cubes Standard 2 (Some (dec 5 1)) simple) /\
  passes 4 1 1 (cubes Standard 1 (Some (dec 5 1)) simple) /\
  passes 4 4 4 (cubes Proximity 2 (Some (dec 1 1)) simple) /\ passes 4 4 4 (cubes Proximity 2 (Some (dec 5 1)) simple) /\
  passes 4 1 1 (cubes Proximity 1 (Some (dec 5 1)) simple).
Proof. parts; run. Qed.

Definition lines : list (list spec_float) := two_lines 30.
Definition passes_any (n comps : nat) (g : gen (list nat)) : Prop := exists charts, passes n charts comps g.
Ltac any := match goal with |- passes_any _ _ ?g => let n := eval vm_compute in (length (yields g)) in exists n; run end.
Example test_cover_two_lines :
  passes 60 1 1 (trivial_cover lines) /\
  passes 60 10 2 (ball (dec 2 1) lines) /\ passes 60 4 2 (ball (dec 5 1) lines) /\ passes 60 4 2 (ball (dec 10 1) lines) /\
  passes 60 2 1 (ball (dec 11 1) lines) /\ passes 60 1 1 (ball (dec 15 1) lines) /\
  passes_any 60 2 (knn 3 lines) /\ passes_any 60 2 (knn 10 lines) /\ passes_any 60 2 (knn 15 lines) /\ passes 60 2 1 (knn 31 lines) /\
  passes 60 4 2 (cubes Standard 2 (Some (dec 5 1)) lines) /\ passes 60 4 2 (cubes Proximity 2 (Some (dec 5 1)) lines).
Proof. parts; first [run|any]. Qed.

Example test_cover_grid :
  passes 49 1 1 (trivial_cover (grid 7)) /\
  passes 49 49 49 (ball (dec 1 2) (grid 7)) /\ passes_any 49 1 (ball (dec 2 1) (grid 7)) /\
  passes 49 49 49 (knn 1 (grid 7)) /\ passes_any 49 1 (knn 10 (grid 7)) /\
  passes 49 4 1 (cubes Standard 2 (Some (dec 5 1)) (grid 7)) /\ passes 49 4 1 (cubes Standard 2 None (grid 7)) /\
  passes 49 4 1 (cubes Proximity 2 (Some (dec 5 1)) (grid 7)).
Proof. parts; first [run|any]. Qed.

(** ** tests/test_unit_cover.py:210-232 [test_cubical_cover]: the search of every seventh point of
    0, 1, ..., 99 against the interval that the test computes; the last point finds the
    same as the one before. *)
Definition count_to (n : nat) : list (list spec_float) := map (fun i => [fl i]) (seq 0 n).
Definition t_fit : res (list spec_float -> res (list nat)) :=
  cubical_fit TA t_eps (@mkcub TA 10 (Some (dec 1 1)) tree0 1 None) (count_to 100).
Definition t_w : spec_float := div FA (fl 99) (mul FA (fl 10) (sub FA (fl 1) (dec 1 1))).
Definition t_delta : spec_float := mul FA (dec 1 1) t_w.
Definition t_expected (x : spec_float) : list nat :=
  let i := ofz FA (f_floor (div FA (sub FA x (fl 0)) (sub FA t_w t_delta))) in
  let a := sub FA (add FA (fl 0) (mul FA i (sub FA t_w t_delta))) (div FA t_delta (fl 2)) in
  let b := add FA (add FA (fl 0) (mul FA (add FA i (fl 1)) (sub FA t_w t_delta))) (div FA t_delta (fl 2)) in
  filter (fun y => lt_b FA a (fl y) && lt_b FA (fl y) b) (seq 0 100).
Definition same_ids (r : res (list nat)) (l : list nat) : bool :=
  match r with
  | Ok ids => forallb (fun i => existsb (Nat.eqb i) l) ids && forallb (fun i => existsb (Nat.eqb i) ids) l
  | Err _ => false
  end.
Example test_cubical_cover :
  match t_fit with
  | Ok search => forallb (fun x => same_ids (search [fl x]) (t_expected (fl x))) (map (Nat.mul 7) (seq 0 15)) &&
                 match search [fl 98], search [fl 99] with Ok a, Ok b => if list_eq_dec Nat.eq_dec a b then true else false | _, _ => false end
  | Err _ => false
  end = true.
Proof. run. Qed.

(** ** tests/test_unit_core.py. The datasets on a line have 100 points instead of 1000. *)
Definition t_graph {X} (data : list X) (g : gen (list nat)) : res graph := mapper_graph data g (fun _ => trivial_clustering).
Definition t_shape (r : res graph) : res (nat * list nat * nat) :=
  do g <- r;
  let ids := map (fun n => Z.to_nat (fst n)) (g_nodes g) in
  let adj := map (fun p => (Z.to_nat (fst p), map Z.to_nat (snd p))) (g_adj g) in
  do cc <- roots ids (flat_map (fun p => map (fun b => [fst p; b]) (snd p)) adj);
  Ok (length (g_nodes g), map (fun p => length (snd p)) adj, cc).
Definition t_components {X} (data : list X) (g : gen (list nat)) : res nat :=
  do ccs <- mapper_connected_components data g (fun _ => trivial_clustering); Ok (length ccs).
Example test_trivial :
  t_shape (t_graph (grid 10) (trivial_cover (grid 10))) = Ok (1, [0], 1) /\ t_components (grid 10) (trivial_cover (grid 10)) = Ok 100.
Proof. parts; run. Qed.
Example test_ball_small_radius : let data := count_to 100 in
  t_shape (t_graph data (ball (dec 5 1) data)) = Ok (100, repeat 0 100, 100) /\ t_components data (ball (dec 5 1) data) = Ok 100.
Proof. parts; run. Qed.
Example test_ball_large_radius : let data := count_to 100 in
  t_shape (t_graph data (ball (fl 1000) data)) = Ok (1, [0], 1) /\ t_components data (ball (fl 1000) data) = Ok 100.
Proof. parts; run. Qed.
Example test_ball_two_disconnected_clusters :
  let data := (map (fun i => [fl i; fl 0]) (seq 0 100) ++ map (fun i => [fl i; fl 500]) (seq 0 100))%list in
  t_shape (t_graph data (ball (fl 150) data)) = Ok (2, [0; 0], 2) /\ t_components data (ball (fl 150) data) = Ok 200.
Proof. parts; run. Qed.
Definition square : list (list spec_float) := [[fl 0; fl 1]; [fl 1; fl 0]; [fl 0; fl 0]; [fl 1; fl 1]].
Example test_ball_two_connected_clusters :
  t_shape (t_graph square (ball (dec 11 1) square)) = Ok (2, [1; 1], 1) /\ t_components square (ball (dec 11 1) square) = Ok 4.
Proof. parts; run. Qed.
Example test_cubical_line : let data := count_to 100 in
  (do s <- t_shape (t_graph data (cubes Proximity 4 (Some (dec 5 1)) data)); Ok (fst (fst s))) = Ok 4 /\
  (do s <- t_shape (t_graph data (cubes Standard 4 (Some (dec 5 1)) data)); Ok (fst (fst s))) = Ok 4.
Proof. parts; run. Qed.
Example test_cubical_no_overlap :
  t_graph (count_to 3) (cubes Standard 2 (Some (fl 0)) (count_to 3)) = Err ValueError.
Proof. run. Qed.
Definition mock : gen (list nat) := mkgen [[0; 3]; [1; 3]; [1; 2]; [0; 1; 3]] None.
Example test_mock_connected_components :
  match mapper_connected_components [0; 1; 2; 3] mock (fun _ => trivial_clustering) with
  | Ok [a; b; c; d] => (a =? b)%Z && (a =? c)%Z && (a =? d)%Z | _ => false end = true.
Proof. run. Qed.
Example test_mock_labels :
  mapper_labels [0; 1; 2; 3] mock (fun _ => trivial_clustering) = Ok [[0; 3]; [1; 2; 3]; [2]; [0; 1; 3]]%Z.
Proof. run. Qed.

(** ** tests/test_unit_unionfind.py. *)
Definition t_unionfind (datasets : list (list nat)) : res nat := roots (concat datasets) datasets.
Example test_unionfind :
  map t_unionfind [[[]; []]; [[]; [1]]; [[]; [1; 2]]; [[1; 2]; [3; 4]]; [[1; 2; 3]; [3; 4]]] = [Ok 0; Ok 1; Ok 1; Ok 2; Ok 1].
Proof. run. Qed.

(** ** tests/test_unit_heap.py. *)
Definition t_heap (data : list Z) : res bool :=
  do r <- heap_run Z.ltb [] (map (fun x => OpAdd x x) data);
  do l <- mh_list (mkmh (snd r) Unset);
  let keys := map fst (snd l) in
  let at_ (i : nat) := nth i keys (-1)%Z in
  Ok ((length keys =? length data) &&
      forallb (fun i => Z.leb (at_ (2 * i + 1)) (at_ i) && Z.leb (at_ (2 * i + 2)) (at_ i)) (seq 0 (length keys))).
Example test_max_heap :
  map t_heap [[]; [1; 2; 3; 4; 5]; [5; 4; 3; 2; 1]; [1; 1; 1; 1; 2]]%Z = [Ok true; Ok true; Ok true; Ok true] /\
  heap_top (@nil (Z * Z)) = None /\ heap_pop Z.ltb (@nil (Z * Z)) = Ok (None, []) /\ heap_is_empty (@nil (Z * Z)) = true.
Proof. parts; run. Qed.

(** ** tests/test_unit_quickselect.py: the arrays stay as the calls before left them. *)
Definition t_arrays : list (qstate Z Z nat) :=
  map (fun p => mkq (fst p) (Some (snd p)) None)
    [([0; 1; -1], [4; 5; 6]); ([3; 2; 1], [7; 8; 9]); ([10; 20; 30], [11; 12; 13]); ([-5; -10; -15], [-1; -2; -3]);
     ([0; 0; 1; 6; 9; 1; 1], [-1; -2; -3; 0; 0; 0; 0])]%Z.
Fixpoint t_each (choices : list nat) (call : nat -> qstate Z Z nat -> res (bool * qstate Z Z nat)) (st : qstate Z Z nat) : res bool :=
  match choices with
  | [] => Ok true
  | c :: rest => do r <- call c st; do b <- t_each rest call (snd r); Ok (fst r && b)
  end.
Definition t_partition (c : nat) (st : qstate Z Z nat) : res (bool * qstate Z Z nat) :=
  do r <- partition Z.ltb st 0 (length (qdata st)) (Z.of_nat c);
  let d := qdata (snd r) in
  Ok (forallb (fun x => x <? Z.of_nat c)%Z (firstn (fst r) d) && forallb (fun x => Z.of_nat c <=? x)%Z (skipn (fst r) d), snd r).
Definition t_quickselect (c : nat) (st : qstate Z Z nat) : res (bool * qstate Z Z nat) :=
  do st' <- quickselect Z.ltb st 0 (length (qdata st)) c;
  let d := qdata st' in let v := nth c d 0%Z in
  Ok (forallb (fun x => x <=? v)%Z (firstn c d) && forallb (fun x => v <=? x)%Z (skipn c d), st').
Example test_partition : map (fun st => t_each (seq 0 (length (qdata st))) t_partition st) t_arrays = repeat (Ok true) 5.
Proof. run. Qed.
Example test_quickselect : map (fun st => t_each (seq 0 (length (qdata st))) t_quickselect st) t_arrays = repeat (Ok true) 5.
Proof. run. Qed.

(** ** tests/test_unit_vptree.py. A random pivot is taken from an arbitrary sequence. *)
Definition t_par (p : pivoting) (eps : spec_float) (k : nat) : vparams spec_float := mkvp k eps p (fun c => 7 * c * c + 3).
Definition insert (x : spec_float) (l : list spec_float) : list spec_float :=
  (fix go l := match l with [] => [x] | y :: r => if le_b FA x y then x :: l else y :: go r end) l.
Definition sort (l : list spec_float) : list spec_float := fold_right insert [] l.
Definition f_same (a b : spec_float) : bool := le_b FA a b && le_b FA b a.
Definition all_same (l l' : list spec_float) : bool :=
  (length l =? length l') && forallb (fun p => f_same (fst p) (snd p)) (combine l l').
Definition t_search_tree (d : list spec_float -> list spec_float -> spec_float) kind p eps k (X : list (list spec_float)) : res bool :=
  do t <- vptree d (le_b FA) (lt_b FA) (zero FA) kind (t_par p eps k) X;
  fold_right (fun q r =>
    do b <- r;
    do neigh <- ball_search d (le_b FA) (lt_b FA) t_gap t q eps false;
    do near <- knn_search d (le_b FA) (lt_b FA) t_gap (zero FA) t q k;
    do one <- knn_search d (le_b FA) (lt_b FA) t_gap (zero FA) t q 1;
    let dists := map (d q) in
    let all := sort (dists X) in
    Ok (b && all_same (sort (dists neigh)) (sort (dists (filter (fun y => lt_b FA (d q y) eps) X)))
          && (length near =? Nat.min k (length X)) && all_same (sort (dists near)) (firstn (length near) all)
          && all_same (firstn 1 all) [fl 0] && all_same (dists one) [fl 0])) (Ok true) X.
Definition t_trees (d : list spec_float -> list spec_float -> spec_float) (X : list (list spec_float)) : list (res bool) :=
  flat_map (fun kind => flat_map (fun p => flat_map (fun eps => map (fun k => t_search_tree d kind p eps k X) [2; 10])
    [dec 1 1; dec 5 1]) [Disabled; Random; Furthest]) [Flat; Hierarchical].
Definition all_true (l : list (res bool)) : bool := forallb (fun r => match r with Ok b => b | Err _ => false end) l.
(** [_check_vptree_property], tests/test_unit_vptree.py:82-115. *)
Fixpoint t_check (fuel : nat) (d : list spec_float -> list spec_float -> spec_float) (eps : spec_float) (k : nat)
  (X : list (list spec_float)) (dists : list spec_float) (ids : list nat) (s e : nat) : bool :=
  match fuel with
  | 0 => false
  | S fuel =>
      let r := nth s dists (fl 0) in
      let pt i := nth (nth i ids 0) X [] in
      if (k <? e - s) && lt_b FA eps r then
        let mid := (s + e) / 2 in
        forallb (fun i => le_b FA (d (pt s) (pt i)) r) (seq (s + 1) (mid - (s + 1))) &&
        forallb (fun i => le_b FA r (d (pt s) (pt i))) (seq mid (e - mid)) &&
        t_check fuel d eps k X dists ids (s + 1) mid && t_check fuel d eps k X dists ids mid e
      else true
  end.
Definition t_property (d : list spec_float -> list spec_float -> spec_float) kind p eps k (X : list (list spec_float)) : bool :=
  match vptree d (le_b FA) (lt_b FA) (zero FA) kind (t_par p eps k) X with
  | Ok (FlatT X' a) | Ok (HierT X' _ a) =>
      match qextra1 a with Some ids => t_check (length X) d eps k X' (qdata a) ids 0 (length X) | None => false end
  | Err _ => false
  end.
Definition t_properties (d : list spec_float -> list spec_float -> spec_float) (X : list (list spec_float)) : bool :=
  forallb (fun kind => forallb (fun p => forallb (fun eps => forallb (fun k => t_property d kind p eps k X) [2; 10])
    [dec 1 1; dec 5 1]) [Disabled; Random; Furthest]) [Flat; Hierarchical].
(** [test_vptree], [test_vptree_public] for the rectangle, two lines of 4 points and a grid
    of 3 x 3 points instead of 10 x 10 (with 10 points on each line and 5 x 5 on the grid they pass, too). *)
Example test_vptree_euclidean :
  all_true (t_trees t_euclidean simple) && all_true (t_trees t_euclidean (grid 3)) && t_properties t_euclidean (grid 3) = true.
Proof. run. Qed.
Example test_vptree_manhattan :
  all_true (t_trees t_manhattan simple) && all_true (t_trees t_manhattan (two_lines 4)) && t_properties t_manhattan (two_lines 4) = true.
Proof. run. Qed.
Example test_vptree_small_dataset :
  forallb (fun kind => forallb (fun X =>
    match vptree (fun a b : Z => Z.abs (a - b)) Z.leb Z.ltb 0%Z kind (mkvp 1 0%Z Disabled (fun _ => 0)) X with
    | Ok (FlatT _ a) | Ok (HierT _ _ a) => length (qdata a) =? length X
    | Err _ => false
    end) [[]; [1]; [1; 2]]%Z) [Flat; Hierarchical] = true.
Proof. run. Qed.

(** ** tests/test_unit_metrics.py, for the orders 1, 2 and infinity. *)
Definition t_get (s : string) (kw : list (string * kwarg FA)) (a b : list spec_float) : res spec_float :=
  do m <- get_metric FA fsqrt (Name s) kw; m a b.
Definition t_agree (f : list spec_float -> list spec_float -> res spec_float) (s : string) (kw : list (string * kwarg FA)) (X : list (list spec_float)) : bool :=
  forallb (fun a => forallb (fun b => match f a b, t_get s kw a b with
    | Ok u, Ok v => f_same u v || (negb (f_same u u) && negb (f_same v v))
    | Err ZeroDivisionError, Err ZeroDivisionError => true
    | _, _ => false end) X) X.
Definition order_kw (o : order FA) : list (string * kwarg FA) := [("p", OrderValue o)]%string.
Example test_metrics :
  forallb (fun X =>
    t_agree (fun a b => Ok (t_euclidean a b)) "euclidean" [] X &&
    t_agree (fun a b => Ok (t_manhattan a b)) "manhattan" [] X &&
    t_agree (fun a b => Ok (chebyshev_norm FA fsqrt a b)) "chebyshev" [] X &&
    t_agree (fun a b => Ok (t_manhattan a b)) "minkowski" (order_kw (Ord (A := FA) (fl 1))) X &&
    t_agree (fun a b => Ok (t_euclidean a b)) "minkowski" (order_kw (Ord (A := FA) (fl 2))) X &&
    t_agree (fun a b => Ok (chebyshev_norm FA fsqrt a b)) "minkowski" (order_kw PosInf) X &&
    t_agree (cosine FA fsqrt) "cosine" [] X) [simple; two_lines 5; grid 3] = true.
Proof. run. Qed.
Example test_supported_metrics :
  forallb (fun s => existsb (String.eqb s) get_supported_metrics) ["euclidean"; "manhattan"; "chebyshev"; "cosine"; "minkowski"]%string &&
  (length get_supported_metrics =? 5) = true.
Proof. run. Qed.
Example test_non_existent_metric : t_get "non_existent_metric" [] [] [] = Err ValueError.
Proof. run. Qed.

(** ** tests/test_unit_plot.py, up to the values handed to the plotting libraries. *)
Definition t_plots (g : graph) (dims : list nat) (colors : list (list Q)) : bool :=
  forallb (fun dim =>
    match make_plot QA demo_layout (fun _ _ => []) g dim "igraph" with
    | Err _ => false
    | Ok m =>
        let one := map (fun r => hd 0%Q r) colors in
        let all := match colors with [] => CA1 (A := QA) [] | _ => CA2 (mkcolors (A := QA) colors 2) end in
        is_ok (plot_plotly QA string demo_scale demo_cmap demo_str m all (NSNum (A := QA) 1%Q) TNone mean (CMStr "Jet") None None) &&
        is_ok (plot_matplotlib QA (fun q => q) m None one 1%Q mean "jet") &&
        is_ok (compute_net QA (fun q => q) Qfloor 100%Q (-(100))%Q string demo_scale m one 1%Q mean 512 512 "Jet")
    end) dims.
Example test_plot_two_connected_clusters :
  match t_graph square (ball (dec 11 1) square) with
  | Ok g => t_plots g [2; 3] [[0; 1]; [1; 0]; [0; 0]; [1; 1]]%Q
  | Err _ => false
  end = true.
Proof. run. Qed.
Example test_empty_graph : t_plots empty_graph [2] [] = true.
Proof. run. Qed.
