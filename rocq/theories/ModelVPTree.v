(** Model of src/tdamapper/utils/vptree.py, vptree_flat/*.py and vptree_hier/*.py.

    Points have any type [T], distances any type [D] with the Python operations
    used by the code: [a <= b] is [leb], [a < b] is [ltb], [abs(a - b)] is [gap],
    [0.0] is [zero]. Keeping them abstract lets the theorems be read for exact
    reals, for rationals and for rounded arithmetic. The metric is a total
    function; ModelCalls has metrics that raise. [float('inf')] is [None].

    Arrays are [qstate D nat bool]: distances, indices, terminal flags (the
    hierarchical tree has no flags: [None]). *)
From Verif Require Import Base ModelQuickselect ModelHeap.

Section VPTree.
Context {T D : Type}.
Variable metric : T -> T -> D.
Variables leb ltb : D -> D -> bool.
Variable gap : D -> D -> D.
Variable zero : D.

Notation varr := (qstate D nat bool).

(** vptree_flat/common.py:20, vptree_hier/common.py:22. *)
Inductive pivoting : Type := Disabled | Random | Furthest.

(** Constructor arguments. [rng c] is the outcome of the [c]-th call of the random
    generator, arbitrary. *)
Record vparams : Type := mkvp {
  leaf_capacity : nat;
  leaf_radius : D;
  pivot_kind : pivoting;
  rng : nat -> nat }.

Variable par : vparams.
Variable dataset : list T.

(** vptree_flat/common.py:16-17, vptree_hier/common.py:16-17 [_mid]. *)
Definition mid_ (s e : nat) : nat := (s + e) / 2.

(** [randrange(s, e)], for [s < e]. *)
Definition randrange (c s e : nat) : nat := s + rng par c mod (e - s).

(** vptree_flat/common.py:61-79, vptree_hier/common.py:57-75 [get_point], [get_points]. *)
Definition get_index (st : varr) (i : nat) : res nat :=
  match qextra1 st with Some l => rd l i | None => Err TypeError end.
Definition get_point (st : varr) (i : nat) : res T :=
  do ix <- get_index st i; rd dataset ix.
Definition get_points (st : varr) (s e : nat) : res (list T) :=
  match qextra1 st with Some l => map_res (rd dataset) (slice l s e) | None => Err TypeError end.

(** vptree_flat/common.py:81-115 [get_distance], [set_distance], [set_terminal],
    [is_terminal]; vptree_hier/common.py:77-93 [get_distance], [set_distance]. The accessors of
    the tree and of its parameters (vptree_flat/common.py:53-59, 143-170, vptree_hier/common.py:
    49-55, 121-154) are projections here. [swap], [partition] (vptree_flat/common.py:117-134,
    vptree_hier/common.py:95-112) are those of ModelQuickselect on the arrays. *)
Definition get_distance (st : varr) (i : nat) : res D := rd (qdata st) i.
Definition set_distance (st : varr) (i : nat) (x : D) : res varr :=
  do d <- wr (qdata st) i x; Ok (mkq d (qextra1 st) (qextra2 st)).
Definition is_terminal (st : varr) (i : nat) : res bool :=
  match qextra2 st with Some l => rd l i | None => Err TypeError end.
Definition set_terminal (st : varr) (i : nat) (b : bool) : res varr :=
  match qextra2 st with
  | Some l => do l' <- wr l i b; Ok (mkq (qdata st) (qextra1 st) (Some l'))
  | None => Err TypeError
  end.

(** vptree_flat/builder.py:58-68, vptree_hier/builder.py:63-73 [_furthest]. *)
Definition furthest (st : varr) (s e i : nat) : res nat :=
  do i_point <- get_point st i;
  do r <- for_range (e - s) s
    (fun j acc =>
       let '(furthest_dist, far) := acc in
       do j_point <- get_point st j;
       let j_dist := metric i_point j_point in
       if ltb furthest_dist j_dist then Ok (j_dist, j) else Ok (furthest_dist, far))
    (zero, s);
  Ok (snd r).

(** vptree_flat/builder.py:48-56, 70-77, vptree_hier/builder.py:53-61, 75-82.
    [c] counts the calls of the random generator. *)
Definition pivoting_ (c : nat) (st : varr) (s e : nat) : res (nat * varr) :=
  match pivot_kind par with
  | Disabled => Ok (c, st)
  | Random =>
      if e <=? s then Ok (c, st)
      else
        let pivot := randrange c s e in
        if s <? pivot then do st' <- swap_all st s pivot; Ok (S c, st') else Ok (S c, st)
  | Furthest =>
      if e <=? s then Ok (c, st)
      else
        let rnd := randrange c s e in
        do furthest_rnd <- furthest st s e rnd;
        do far <- furthest st s e furthest_rnd;
        if s <? far then do st' <- swap_all st s far; Ok (S c, st') else Ok (S c, st)
  end.

(** vptree_flat/builder.py:83-86, vptree_hier/builder.py:87-89: loop body of
    [_update]; the hierarchical builder has no flag to copy ([None]). *)
Definition update_step (v_point : T) (flag : option bool) (i : nat) (st : varr) : res varr :=
  do point <- get_point st i;
  do st1 <- set_distance st i (metric v_point point);
  match flag with
  | Some b => set_terminal st1 i b
  | None => Ok st1
  end.

(** vptree_flat/builder.py:79-86 [_update]. *)
Definition update_flat (c : nat) (st : varr) (s e : nat) : res (nat * varr) :=
  do cs <- pivoting_ c st s e;
  let '(c1, st1) := cs in
  do v_point <- get_point st1 s;
  do flag <- is_terminal st1 s;
  do st2 <- for_range (e - S s) (S s) (update_step v_point (Some flag)) st1;
  Ok (c1, st2).

(** vptree_hier/builder.py:84-89 [_update]. *)
Definition update_hier (c : nat) (st : varr) (s e : nat) : res (nat * varr) :=
  do cs <- pivoting_ c st s e;
  let '(c1, st1) := cs in
  do v_point <- get_point st1 s;
  do st2 <- for_range (e - S s) (S s) (update_step v_point None) st1;
  Ok (c1, st2).

(** vptree_flat/builder.py:98-117 [_build_iter]; the head of [stack] is its top. *)
Fixpoint build_loop (fuel : nat) (stack : list (nat * nat)) (c : nat) (st : varr) : res varr :=
  match stack with
  | [] => Ok st
  | (s, e) :: rest =>
      match fuel with
      | 0 => Err OutOfFuel
      | S fuel' =>
          let mid := mid_ s e in
          do cs <- update_flat c st s e;
          let '(c1, st1) := cs in
          do st2 <- quickselect ltb st1 (S s) e mid;
          do v_radius <- get_distance st2 mid;
          if (2 * leaf_capacity par <? e - s) && ltb (leaf_radius par) v_radius then
            do st3 <- set_distance st2 s v_radius;
            do st4 <- set_terminal st3 s false;
            build_loop fuel' ((S s, mid) :: (mid, e) :: rest) c1 st4
          else
            do st3 <- set_distance st2 s v_radius;
            do st4 <- set_terminal st3 s true;
            build_loop fuel' rest c1 st4
      end
  end.

(** vptree_flat/builder.py:30-37, 88-96 [__init__], [build]. *)
Definition build_flat : res varr :=
  let n := length dataset in
  let st := mkq (repeat zero n) (Some (seq 0 n)) (Some (repeat false n)) in
  if 0 <? n then build_loop (2 * n + 1) [(0, n)] 0 st else Ok st.

(** vptree_flat/ball_search.py:47-50, vptree_hier/ball_search.py:53-56 [_inside]. *)
Definition inside (eps : D) (inclusive : bool) (dist : D) : bool :=
  if inclusive then leb dist eps else ltb dist eps.

(** vptree_flat/ball_search.py:61-64, vptree_hier/ball_search.py:64-67. *)
Definition ball_leaf (q : T) (eps : D) (inclusive : bool) (xs result : list T) : list T :=
  result ++ filter (fun x => inside eps inclusive (metric q x)) xs.

(** vptree_flat/ball_search.py:52-79 [_search_iter]. *)
Fixpoint ball_loop (fuel : nat) (st : varr) (q : T) (eps : D) (inclusive : bool)
    (stack : list (nat * nat)) (result : list T) : res (list T) :=
  match stack with
  | [] => Ok result
  | (s, e) :: rest =>
      match fuel with
      | 0 => Err OutOfFuel
      | S fuel' =>
          do v_radius <- get_distance st s;
          do v_point <- get_point st s;
          do term <- is_terminal st s;
          if (term : bool) then
            do xs <- get_points st s e;
            ball_loop fuel' st q eps inclusive rest (ball_leaf q eps inclusive xs result)
          else
            let dist := metric q v_point in
            let mid := mid_ s e in
            let result1 := if inside eps inclusive dist then result ++ [v_point] else result in
            let '(fst_, snd_) := if leb dist v_radius then ((S s, mid), (mid, e))
                                 else ((mid, e), (S s, mid)) in
            let rest1 := if leb (gap dist v_radius) eps then snd_ :: rest else rest in
            ball_loop fuel' st q eps inclusive (fst_ :: rest1) result1
      end
  end.

(** vptree_flat/ball_search.py:30-45 [__init__], [search] (for the other tree:
    vptree_hier/ball_search.py:32-51). *)
Definition ball_flat (st : varr) (q : T) (eps : D) (inclusive : bool) : res (list T) :=
  ball_loop (2 * length dataset + 1) st q eps inclusive [(0, length dataset)] [].

(** *** k nearest neighbours, common parts *)
Notation heap := (list (D * T)).

(** [while len(result) > neighbors: result.pop()] (vptree_flat/knn_search.py:41-42
    and 59-60, vptree_hier/knn_search.py:43-44). *)
Fixpoint pop_while (fuel : nat) (k : nat) (h : heap) : res heap :=
  if k <? length h then
    match fuel with
    | 0 => Err OutOfFuel
    | S fuel' => do r <- heap_pop ltb h; pop_while fuel' k (snd r)
    end
  else Ok h.

(** vptree_flat/knn_search.py:40-43, vptree_hier/knn_search.py:42-45 [_get_items].
    The comprehension iterates the heap once: all entries in array order (C15). *)
Definition get_items (k : nat) (h : heap) : res (heap * list T) :=
  do h' <- pop_while (length h) k h; Ok (h', map snd h').

(** vptree_flat/knn_search.py:54-65 [_process]. State: ([_result], [_radius]). *)
Definition process (k : nat) (q : T) (x : T) (s : heap * option D) : res (D * (heap * option D)) :=
  let '(h, radius) := s in
  let dist := metric q x in
  if match radius with None => false | Some r => leb r dist end then Ok (dist, (h, radius))
  else
    do h1 <- heap_add ltb h dist x;
    do h2 <- pop_while (length h1) k h1;
    let radius' := if length h2 =? k then
                     match heap_top h2 with None => radius | Some (d, _) => Some d end
                   else radius in
    Ok (dist, (h2, radius')).

Inductive action : Type := Pre | Post.

(** vptree_flat/knn_search.py:67-97 [_search_iter], without the final [_get_items]. *)
Fixpoint knn_loop (fuel : nat) (st : varr) (k : nat) (q : T)
    (stack : list (nat * nat * D * action)) (s : heap * option D) : res (heap * option D) :=
  match stack with
  | [] => Ok s
  | (start, fin, thr, act) :: rest =>
      match fuel with
      | 0 => Err OutOfFuel
      | S fuel' =>
          do v_radius <- get_distance st start;
          do v_point <- get_point st start;
          do term <- is_terminal st start;
          if (term : bool) then
            do xs <- get_points st start fin;
            do s1 <- for_each xs (fun x s0 => do r <- process k q x s0; Ok (snd r)) s;
            knn_loop fuel' st k q rest s1
          else
            match act with
            | Pre =>
                let mid := mid_ start fin in
                do r <- process k q v_point s;
                let '(dist, s1) := r in
                let '(f, n) := if leb dist v_radius then ((S start, mid), (mid, fin))
                               else ((mid, fin), (S start, mid)) in
                knn_loop fuel' st k q
                  ((fst f, snd f, zero, Pre) :: (fst n, snd n, gap v_radius dist, Post) :: rest) s1
            | Post =>
                if match snd s with None => true | Some r => ltb thr r end
                then knn_loop fuel' st k q ((start, fin, zero, Pre) :: rest) s
                else knn_loop fuel' st k q rest s
            end
      end
  end.

(** vptree_flat/knn_search.py:45-52 [search]; [_get_items] runs twice. *)
Definition knn_flat (st : varr) (q : T) (k : nat) : res (list T) :=
  do s <- knn_loop (3 * length dataset + 1) st k q [(0, length dataset, zero, Pre)] ([], None);
  do r1 <- get_items k (fst s);
  do r2 <- get_items k (fst r1);
  Ok (snd r2).

(** *** Hierarchical tree *)
(** vptree_hier/common.py:157-326: the abstract tree, [Node] (217-266) and [Leaf] (277-326). *)
Inductive htree : Type :=
| HLeaf (s e : nat)
| HNode (radius : D) (center : T) (left right : htree).

(** vptree_hier/builder.py:103-122 [_build_rec]. *)
Fixpoint build_rec (fuel : nat) (s e : nat) (c : nat) (st : varr) : res (htree * (nat * varr)) :=
  match fuel with
  | 0 => Err OutOfFuel
  | S fuel' =>
      if e - s <=? leaf_capacity par then Ok (HLeaf s e, (c, st))
      else
        let mid := mid_ s e in
        do cs <- update_hier c st s e;
        let '(c1, st1) := cs in
        do v_point <- get_point st1 s;
        do st2 <- quickselect ltb st1 (S s) e mid;
        do v_radius <- get_distance st2 mid;
        do st3 <- set_distance st2 s v_radius;
        if leb v_radius (leaf_radius par) then
          Ok (HNode v_radius v_point (HLeaf (S s) mid) (HLeaf mid e), (c1, st3))
        else
          do l <- build_rec fuel' (S s) mid c1 st3;
          let '(lt_, (c2, st4)) := l in
          do r <- build_rec fuel' mid e c2 st4;
          let '(rt_, (c3, st5)) := r in
          Ok (HNode v_radius v_point lt_ rt_, (c3, st5))
  end.

(** vptree_hier/builder.py:36-42, 91-101 [__init__], [build]. *)
Definition build_hier : res (htree * varr) :=
  let n := length dataset in
  let st := mkq (repeat zero n) (Some (seq 0 n)) None in
  if 0 <? n then
    do r <- build_rec (S n) 0 n 0 st; Ok (fst r, snd (snd r))
  else Ok (HLeaf 0 0, st).

(** vptree_hier/ball_search.py:58-81 [_search_rec]. [tree.ball] and [tree.bounds]
    are never [None] for the node kind tested by [is_terminal], and children of
    nodes are never [None]. *)
Fixpoint ball_rec (st : varr) (q : T) (eps : D) (inclusive : bool) (t : htree) (result : list T)
  : res (list T) :=
  match t with
  | HLeaf s e => do xs <- get_points st s e; Ok (ball_leaf q eps inclusive xs result)
  | HNode v_radius v_point l r =>
      let dist := metric v_point q in
      let result1 := if inside eps inclusive dist then result ++ [v_point] else result in
      if leb dist v_radius then
        do result2 <- ball_rec st q eps inclusive l result1;
        if leb (gap dist v_radius) eps then ball_rec st q eps inclusive r result2 else Ok result2
      else
        do result2 <- ball_rec st q eps inclusive r result1;
        if leb (gap dist v_radius) eps then ball_rec st q eps inclusive l result2 else Ok result2
  end.

(** vptree_hier/knn_search.py:47-54 [_get_radius]. *)
Definition get_radius (k : nat) (h : heap) : option D :=
  if length h <? k then None
  else match heap_top h with None => None | Some (d, _) => Some d end.

(** vptree_hier/knn_search.py:37-40 [_add]. *)
Definition knn_add (k : nat) (h : heap) (dist : D) (x : T) : res heap :=
  do h1 <- heap_add ltb h dist x;
  if k <? length h1 then do r <- heap_pop ltb h1; Ok (snd r) else Ok h1.

(** vptree_hier/knn_search.py:73-74, 81-82. *)
Definition knn_offer (k : nat) (dist : D) (x : T) (h : heap) : res heap :=
  if match get_radius k h with None => true | Some r => ltb dist r end
  then knn_add k h dist x else Ok h.

(** vptree_hier/knn_search.py:65-90 [_search_rec]. *)
Fixpoint knn_rec (st : varr) (k : nat) (q : T) (t : htree) (h : heap) : res heap :=
  match t with
  | HLeaf s e =>
      do xs <- get_points st s e;
      for_each xs (fun x h0 => knn_offer k (metric q x) x h0) h
  | HNode v_radius v_point l r =>
      let dist := metric v_point q in
      do h1 <- knn_offer k dist v_point h;
      let near h2 := match get_radius k h2 with
                     | None => true | Some rad => leb (gap dist v_radius) rad end in
      if leb dist v_radius then
        do h2 <- knn_rec st k q l h1;
        if near h2 then knn_rec st k q r h2 else Ok h2
      else
        do h2 <- knn_rec st k q r h1;
        if near h2 then knn_rec st k q l h2 else Ok h2
  end.

(** vptree_hier/knn_search.py:29-35, 56-63 [__init__], [search]. *)
Definition knn_hier (t : htree) (st : varr) (q : T) (k : nat) : res (list T) :=
  do h <- knn_rec st k q t [];
  do r <- get_items k h;
  Ok (snd r).

End VPTree.
Arguments vparams : clear implicits.
Arguments mkvp {D}.

(** *** vptree.py *)
(** vptree.py:11: the two supported values of [kind], or any other value. *)
Inductive vkind : Type := Flat | Hierarchical | OtherKind.

(** A built tree: the dataset copied by the builder ([list(X)]) with its arrays. *)
Inductive vpt (T D : Type) : Type :=
| FlatT (data : list T) (arr : qstate D nat bool)
| HierT (data : list T) (tree : @htree T D) (arr : qstate D nat bool).
Arguments FlatT {T D}.
Arguments HierT {T D}.

Section Facade.
Context {T D : Type}.
Variable metric : T -> T -> D.
Variables leb ltb : D -> D -> bool.
Variable gap : D -> D -> D.
Variable zero : D.

(** vptree.py:33-55 [VPTree.__init__]. *)
Definition vptree (kind : vkind) (par : vparams D) (X : list T) : res (vpt T D) :=
  match kind with
  | Flat => do arr <- build_flat metric ltb zero par X; Ok (FlatT X arr)
  | Hierarchical => do r <- build_hier metric leb ltb zero par X; Ok (HierT X (fst r) (snd r))
  | OtherKind => Err ValueError
  end.

(** vptree.py:57-72 [ball_search]. *)
Definition ball_search (t : vpt T D) (q : T) (eps : D) (inclusive : bool) : res (list T) :=
  match t with
  | FlatT X arr => ball_flat metric leb ltb gap X arr q eps inclusive
  | HierT X tree arr => ball_rec metric leb ltb gap X arr q eps inclusive tree []
  end.

(** vptree.py:74-85 [knn_search], [k >= 0]. *)
Definition knn_search (t : vpt T D) (q : T) (k : nat) : res (list T) :=
  match t with
  | FlatT X arr => knn_flat metric leb ltb gap zero X arr q k
  | HierT X tree arr => knn_hier metric leb ltb gap X tree arr q k
  end.
End Facade.
