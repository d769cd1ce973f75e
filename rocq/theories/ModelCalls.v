(** The vp-trees once more, with the calls of the metric made explicit.

    ModelVPTree takes the metric as a total function. Here it is user code: [ev x y]
    is what the call [distance(x, y)] does, return a distance or raise. A
    computation receives the calls made so far, newest first, and extends them with
    its own; an exception drops them, and everything else, as it propagates. Names
    are those of ModelVPTree with [_c], and each definition follows the lines cited there
    again; quickselect and the heap never call the metric and are shared. *)
From Verif Require Import Base ModelCore ModelQuickselect ModelHeap ModelVPTree ModelCover.
Open Scope nat_scope.

Section Calls.
Context {T D : Type}.
Variable ev : T -> T -> res D.
Variables leb ltb : D -> D -> bool.
Variable gap : D -> D -> D.
Variable zero : D.

Definition calls : Type := list (T * T).
Definition M (A : Type) : Type := calls -> res (A * calls).

Definition retM {A} (x : A) : M A := fun w => Ok (x, w).
Definition liftM {A} (r : res A) : M A := fun w => do x <- r; Ok (x, w).
Definition bindM {A B} (m : M A) (k : A -> M B) : M B :=
  fun w => do r <- m w; k (fst r) (snd r).
(** [self._distance(x, y)]. *)
Definition ask (x y : T) : M D := fun w => do d <- ev x y; Ok (d, (x, y) :: w).

Notation "'let!' x <- e ; k" := (bindM e (fun x => k))
  (at level 200, x pattern, e at level 100, k at level 200, right associativity).

Fixpoint for_rangeM {S : Type} (n s : nat) (body : nat -> S -> M S) (st : S) : M S :=
  match n with
  | 0 => retM st
  | Datatypes.S n' => let! st' <- body s st; for_rangeM n' (Datatypes.S s) body st'
  end.
Fixpoint for_eachM {A S : Type} (l : list A) (body : A -> S -> M S) (st : S) : M S :=
  match l with
  | [] => retM st
  | x :: l' => let! st' <- body x st; for_eachM l' body st'
  end.

Notation varr := (qstate D nat bool).
Notation heap := (list (D * T)).

Section Tree.
Variable par : vparams D.
Variable dataset : list T.
Notation get_point := (get_point dataset).
Notation get_points := (get_points dataset).

(** *** Build *)
(** vptree_flat/builder.py:58-68, vptree_hier/builder.py:63-73 [_furthest]. *)
Definition furthest_c (st : varr) (s e i : nat) : M nat :=
  let! i_point <- liftM (get_point st i);
  let! r <- for_rangeM (e - s) s
    (fun j acc =>
       let '(furthest_dist, far) := acc in
       let! j_point <- liftM (get_point st j);
       let! j_dist <- ask i_point j_point;
       if ltb furthest_dist j_dist then retM (j_dist, j) else retM (furthest_dist, far))
    (zero, s);
  retM (snd r).

(** vptree_flat/builder.py:48-56, 70-77, vptree_hier/builder.py:53-61, 75-82. *)
Definition pivoting_c (c : nat) (st : varr) (s e : nat) : M (nat * varr) :=
  match pivot_kind par with
  | Disabled => retM (c, st)
  | Random =>
      if e <=? s then retM (c, st)
      else
        let pivot := randrange par c s e in
        if s <? pivot then let! st' <- liftM (swap_all st s pivot); retM (S c, st') else retM (S c, st)
  | Furthest =>
      if e <=? s then retM (c, st)
      else
        let rnd := randrange par c s e in
        let! furthest_rnd <- furthest_c st s e rnd;
        let! far <- furthest_c st s e furthest_rnd;
        if s <? far then let! st' <- liftM (swap_all st s far); retM (S c, st') else retM (S c, st)
  end.

(** vptree_flat/builder.py:83-86, vptree_hier/builder.py:87-89. *)
Definition update_step_c (v_point : T) (flag : option bool) (i : nat) (st : varr) : M varr :=
  let! point <- liftM (get_point st i);
  let! d <- ask v_point point;
  let! st1 <- liftM (set_distance st i d);
  match flag with
  | Some b => liftM (set_terminal st1 i b)
  | None => retM st1
  end.

(** vptree_flat/builder.py:79-86 [_update]. *)
Definition update_flat_c (c : nat) (st : varr) (s e : nat) : M (nat * varr) :=
  let! cs <- pivoting_c c st s e;
  let '(c1, st1) := cs in
  let! v_point <- liftM (get_point st1 s);
  let! flag <- liftM (is_terminal st1 s);
  let! st2 <- for_rangeM (e - S s) (S s) (update_step_c v_point (Some flag)) st1;
  retM (c1, st2).

(** vptree_hier/builder.py:84-89 [_update]. *)
Definition update_hier_c (c : nat) (st : varr) (s e : nat) : M (nat * varr) :=
  let! cs <- pivoting_c c st s e;
  let '(c1, st1) := cs in
  let! v_point <- liftM (get_point st1 s);
  let! st2 <- for_rangeM (e - S s) (S s) (update_step_c v_point None) st1;
  retM (c1, st2).

(** vptree_flat/builder.py:98-117 [_build_iter]. *)
Fixpoint build_loop_c (fuel : nat) (stack : list (nat * nat)) (c : nat) (st : varr) : M varr :=
  match stack with
  | [] => retM st
  | (s, e) :: rest =>
      match fuel with
      | 0 => liftM (Err OutOfFuel)
      | S fuel' =>
          let mid := mid_ s e in
          let! cs <- update_flat_c c st s e;
          let '(c1, st1) := cs in
          let! st2 <- liftM (quickselect ltb st1 (S s) e mid);
          let! v_radius <- liftM (get_distance st2 mid);
          if (2 * leaf_capacity par <? e - s) && ltb (leaf_radius par) v_radius then
            let! st3 <- liftM (set_distance st2 s v_radius);
            let! st4 <- liftM (set_terminal st3 s false);
            build_loop_c fuel' ((S s, mid) :: (mid, e) :: rest) c1 st4
          else
            let! st3 <- liftM (set_distance st2 s v_radius);
            let! st4 <- liftM (set_terminal st3 s true);
            build_loop_c fuel' rest c1 st4
      end
  end.

(** vptree_flat/builder.py:30-37, 88-96 [__init__], [build]. *)
Definition build_flat_c : M varr :=
  let n := length dataset in
  let st := mkq (repeat zero n) (Some (seq 0 n)) (Some (repeat false n)) in
  if 0 <? n then build_loop_c (2 * n + 1) [(0, n)] 0 st else retM st.

(** vptree_hier/builder.py:103-122 [_build_rec]. *)
Fixpoint build_rec_c (fuel : nat) (s e : nat) (c : nat) (st : varr)
  : M (@htree T D * (nat * varr)) :=
  match fuel with
  | 0 => liftM (Err OutOfFuel)
  | S fuel' =>
      if e - s <=? leaf_capacity par then retM (HLeaf s e, (c, st))
      else
        let mid := mid_ s e in
        let! cs <- update_hier_c c st s e;
        let '(c1, st1) := cs in
        let! v_point <- liftM (get_point st1 s);
        let! st2 <- liftM (quickselect ltb st1 (S s) e mid);
        let! v_radius <- liftM (get_distance st2 mid);
        let! st3 <- liftM (set_distance st2 s v_radius);
        if leb v_radius (leaf_radius par) then
          retM (HNode v_radius v_point (HLeaf (S s) mid) (HLeaf mid e), (c1, st3))
        else
          let! l <- build_rec_c fuel' (S s) mid c1 st3;
          let '(lt_, (c2, st4)) := l in
          let! r <- build_rec_c fuel' mid e c2 st4;
          let '(rt_, (c3, st5)) := r in
          retM (HNode v_radius v_point lt_ rt_, (c3, st5))
  end.

(** vptree_hier/builder.py:36-42, 91-101 [__init__], [build]. *)
Definition build_hier_c : M (@htree T D * varr) :=
  let n := length dataset in
  let st := mkq (repeat zero n) (Some (seq 0 n)) None in
  if 0 <? n then
    let! r <- build_rec_c (S n) 0 n 0 st; retM (fst r, snd (snd r))
  else retM (HLeaf 0 0, st).

(** *** Ball search *)
(** vptree_flat/ball_search.py:61-64, vptree_hier/ball_search.py:64-67. *)
Definition ball_leaf_c (q : T) (eps : D) (inclusive : bool) (xs result : list T) : M (list T) :=
  for_eachM xs (fun x result0 =>
    let! dist <- ask q x;
    retM (if inside leb ltb eps inclusive dist then result0 ++ [x] else result0)) result.

(** vptree_flat/ball_search.py:52-79 [_search_iter]. *)
Fixpoint ball_loop_c (fuel : nat) (st : varr) (q : T) (eps : D) (inclusive : bool)
    (stack : list (nat * nat)) (result : list T) : M (list T) :=
  match stack with
  | [] => retM result
  | (s, e) :: rest =>
      match fuel with
      | 0 => liftM (Err OutOfFuel)
      | S fuel' =>
          let! v_radius <- liftM (get_distance st s);
          let! v_point <- liftM (get_point st s);
          let! term <- liftM (is_terminal st s);
          if (term : bool) then
            let! xs <- liftM (get_points st s e);
            let! result1 <- ball_leaf_c q eps inclusive xs result;
            ball_loop_c fuel' st q eps inclusive rest result1
          else
            let! dist <- ask q v_point;
            let mid := mid_ s e in
            let result1 := if inside leb ltb eps inclusive dist then result ++ [v_point] else result in
            let '(fst_, snd_) := if leb dist v_radius then ((S s, mid), (mid, e))
                                 else ((mid, e), (S s, mid)) in
            let rest1 := if leb (gap dist v_radius) eps then snd_ :: rest else rest in
            ball_loop_c fuel' st q eps inclusive (fst_ :: rest1) result1
      end
  end.

(** vptree_flat/ball_search.py:30-45. *)
Definition ball_flat_c (st : varr) (q : T) (eps : D) (inclusive : bool) : M (list T) :=
  ball_loop_c (2 * length dataset + 1) st q eps inclusive [(0, length dataset)] [].

(** vptree_hier/ball_search.py:58-81 [_search_rec]. *)
Fixpoint ball_rec_c (st : varr) (q : T) (eps : D) (inclusive : bool) (t : @htree T D)
    (result : list T) : M (list T) :=
  match t with
  | HLeaf s e => let! xs <- liftM (get_points st s e); ball_leaf_c q eps inclusive xs result
  | HNode v_radius v_point l r =>
      let! dist <- ask v_point q;
      let result1 := if inside leb ltb eps inclusive dist then result ++ [v_point] else result in
      if leb dist v_radius then
        let! result2 <- ball_rec_c st q eps inclusive l result1;
        if leb (gap dist v_radius) eps then ball_rec_c st q eps inclusive r result2 else retM result2
      else
        let! result2 <- ball_rec_c st q eps inclusive r result1;
        if leb (gap dist v_radius) eps then ball_rec_c st q eps inclusive l result2 else retM result2
  end.

(** *** k nearest neighbours *)
(** vptree_flat/knn_search.py:54-65 [_process]. *)
Definition process_c (k : nat) (q : T) (x : T) (s : heap * option D) : M (D * (heap * option D)) :=
  let '(h, radius) := s in
  let! dist <- ask q x;
  if match radius with None => false | Some r => leb r dist end then retM (dist, (h, radius))
  else
    let! h1 <- liftM (heap_add ltb h dist x);
    let! h2 <- liftM (pop_while ltb (length h1) k h1);
    let radius' := if length h2 =? k then
                     match heap_top h2 with None => radius | Some (d, _) => Some d end
                   else radius in
    retM (dist, (h2, radius')).

(** vptree_flat/knn_search.py:67-97 [_search_iter], without the final [_get_items]. *)
Fixpoint knn_loop_c (fuel : nat) (st : varr) (k : nat) (q : T)
    (stack : list (nat * nat * D * action)) (s : heap * option D) : M (heap * option D) :=
  match stack with
  | [] => retM s
  | (start, fin, thr, act) :: rest =>
      match fuel with
      | 0 => liftM (Err OutOfFuel)
      | S fuel' =>
          let! v_radius <- liftM (get_distance st start);
          let! v_point <- liftM (get_point st start);
          let! term <- liftM (is_terminal st start);
          if (term : bool) then
            let! xs <- liftM (get_points st start fin);
            let! s1 <- for_eachM xs (fun x s0 => let! r <- process_c k q x s0; retM (snd r)) s;
            knn_loop_c fuel' st k q rest s1
          else
            match act with
            | Pre =>
                let mid := mid_ start fin in
                let! r <- process_c k q v_point s;
                let '(dist, s1) := r in
                let '(f, n) := if leb dist v_radius then ((S start, mid), (mid, fin))
                               else ((mid, fin), (S start, mid)) in
                knn_loop_c fuel' st k q
                  ((fst f, snd f, zero, Pre) :: (fst n, snd n, gap v_radius dist, Post) :: rest) s1
            | Post =>
                if match snd s with None => true | Some r => ltb thr r end
                then knn_loop_c fuel' st k q ((start, fin, zero, Pre) :: rest) s
                else knn_loop_c fuel' st k q rest s
            end
      end
  end.

(** vptree_flat/knn_search.py:45-52 [search]. *)
Definition knn_flat_c (st : varr) (q : T) (k : nat) : M (list T) :=
  let! s <- knn_loop_c (3 * length dataset + 1) st k q [(0, length dataset, zero, Pre)] ([], None);
  let! r1 <- liftM (get_items ltb k (fst s));
  let! r2 <- liftM (get_items ltb k (fst r1));
  retM (snd r2).

(** vptree_hier/knn_search.py:65-90 [_search_rec]. *)
Fixpoint knn_rec_c (st : varr) (k : nat) (q : T) (t : @htree T D) (h : heap) : M heap :=
  match t with
  | HLeaf s e =>
      let! xs <- liftM (get_points st s e);
      for_eachM xs (fun x h0 => let! dist <- ask q x; liftM (knn_offer ltb k dist x h0)) h
  | HNode v_radius v_point l r =>
      let! dist <- ask v_point q;
      let! h1 <- liftM (knn_offer ltb k dist v_point h);
      let near h2 := match get_radius k h2 with
                     | None => true | Some rad => leb (gap dist v_radius) rad end in
      if leb dist v_radius then
        let! h2 <- knn_rec_c st k q l h1;
        if near h2 then knn_rec_c st k q r h2 else retM h2
      else
        let! h2 <- knn_rec_c st k q r h1;
        if near h2 then knn_rec_c st k q l h2 else retM h2
  end.

(** vptree_hier/knn_search.py:29-35, 56-63. *)
Definition knn_hier_c (t : @htree T D) (st : varr) (q : T) (k : nat) : M (list T) :=
  let! h <- knn_rec_c st k q t [];
  let! r <- liftM (get_items ltb k h);
  retM (snd r).
End Tree.

(** *** vptree.py:33-85 *)
Definition vptree_c (kind : vkind) (par : vparams D) (X : list T) : M (vpt T D) :=
  match kind with
  | Flat => let! arr <- build_flat_c par X; retM (FlatT X arr)
  | Hierarchical => let! r <- build_hier_c par X; retM (HierT X (fst r) (snd r))
  | OtherKind => liftM (Err ValueError)
  end.
Definition ball_search_c (t : vpt T D) (q : T) (eps : D) (inclusive : bool) : M (list T) :=
  match t with
  | FlatT X arr => ball_flat_c X arr q eps inclusive
  | HierT X tree arr => ball_rec_c X arr q eps inclusive tree []
  end.
Definition knn_search_c (t : vpt T D) (q : T) (k : nat) : M (list T) :=
  match t with
  | FlatT X arr => knn_flat_c X arr q k
  | HierT X tree arr => knn_hier_c X tree arr q k
  end.
End Calls.
Arguments calls : clear implicits.

(** *** Covers *)
(** core.py:265-270, 245-270: [net_loop] and [proximity_net] with the calls of the searches. When a
    search raises, the calls it made are dropped. *)
Fixpoint net_loop_c {S U : Type} (search : S -> @M U (list nat)) (i : nat) (xs : list S)
    (covered : list nat) (w : calls U) : gen (list nat) * calls U :=
  match xs with
  | [] => (mkgen [] None, w)
  | xi :: xs' =>
      if existsb (Nat.eqb i) covered then net_loop_c search (Datatypes.S i) xs' covered w
      else
        match search xi w with
        | Err e => (mkgen [] (Some e), w)
        | Ok (neigh_ids, w') =>
            let rest := net_loop_c search (Datatypes.S i) xs' (neigh_ids ++ covered) w' in
            match neigh_ids with
            | [] => rest
            | _ => (mkgen (neigh_ids :: yields (fst rest)) (stops (fst rest)), snd rest)
            end
        end
  end.

Section Covers.
Context {T D : Type}.
Variable ev : T -> T -> res D.
Variables leb ltb : D -> D -> bool.
Variable gap : D -> D -> D.
Variable zero : D.

(** cover.py:32-74, 77-81: the metric given to the tree. *)
Definition tree_ev (p q : Z * T) : res D := ev (snd p) (snd q).

(** cover.py:129-182 [BallCover.fit], [search], [apply]. *)
Definition ball_fit_c (c : ball_cover D) (X : list T) : @M (Z * T) (vpt (Z * T) D) :=
  vptree_c tree_ev leb ltb zero (tp_kind (bc_tree c))
    (mkvp (bc_leaf_capacity c) (num_or leb zero (bc_leaf_radius c) (bc_radius c))
       (tp_pivoting (bc_tree c)) (tp_rng (bc_tree c)))
    (enumerate X).
Definition ball_query_c (c : ball_cover D) (t : vpt (Z * T) D) (x : T) : @M (Z * T) (list nat) :=
  bindM (ball_search_c tree_ev leb ltb gap t ((-1)%Z, x) (bc_radius c) false)
    (fun neighs => retM (ids_of neighs)).
Definition ball_apply_c (c : ball_cover D) (X : list T) : gen (list nat) * calls (Z * T) :=
  match ball_fit_c c X [] with
  | Err e => (mkgen [] (Some e), [])
  | Ok (t, w) => net_loop_c (ball_query_c c t) 0 X [] w
  end.

(** cover.py:230-280 [KNNCover.fit], [search], [apply]. *)
Definition knn_fit_c (c : knn_cover D) (X : list T) : @M (Z * T) (vpt (Z * T) D) :=
  vptree_c tree_ev leb ltb zero (tp_kind (kc_tree c))
    (mkvp (nat_or (kc_leaf_capacity c) (kc_neighbors c)) (kc_leaf_radius c)
       (tp_pivoting (kc_tree c)) (tp_rng (kc_tree c)))
    (enumerate X).
Definition knn_query_c (c : knn_cover D) (t : vpt (Z * T) D) (x : T) : @M (Z * T) (list nat) :=
  bindM (knn_search_c tree_ev leb ltb gap zero t ((-1)%Z, x) (kc_neighbors c))
    (fun neighs => retM (ids_of neighs)).
Definition knn_apply_c (c : knn_cover D) (X : list T) : gen (list nat) * calls (Z * T) :=
  match knn_fit_c c X [] with
  | Err e => (mkgen [] (Some e), [])
  | Ok (t, w) => net_loop_c (knn_query_c c t) 0 X [] w
  end.
End Covers.
