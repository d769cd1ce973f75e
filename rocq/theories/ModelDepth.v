(** The recursive functions of the hierarchical tree under a recursion limit: at
    most [limit] calls may be active at once, [Err OutOfFuel] stands for
    Python's [RecursionError]. *)
From Verif Require Import Base ModelQuickselect ModelHeap ModelVPTree.

Section Depth.
Context {T D : Type}.
Variable metric : T -> T -> D.
Variables leb ltb : D -> D -> bool.
Variable gap : D -> D -> D.
Variable zero : D.
Variable dataset : list T.
Notation varr := (qstate D nat bool).

(** vptree_hier/builder.py:91-122 [build], [_build_rec]. *)
Definition build_hier_limit (par : vparams D) (limit : nat) : res (htree * varr) :=
  let n := length dataset in
  let st := mkq (repeat zero n) (Some (seq 0 n)) None in
  if 0 <? n then
    do r <- build_rec metric leb ltb zero par dataset limit 0 n 0 st; Ok (fst r, snd (snd r))
  else Ok (HLeaf 0 0, st).

(** vptree_hier/ball_search.py:58-81 [_search_rec]. *)
Fixpoint ball_rec_limit (limit : nat) (st : varr) (q : T) (eps : D) (inclusive : bool) (t : htree) (result : list T)
  : res (list T) :=
  match limit with
  | 0 => Err OutOfFuel
  | S limit' =>
      match t with
      | HLeaf s e => do xs <- get_points dataset st s e; Ok (ball_leaf metric leb ltb q eps inclusive xs result)
      | HNode v_radius v_point l r =>
          let dist := metric v_point q in
          let result1 := if inside leb ltb eps inclusive dist then result ++ [v_point] else result in
          if leb dist v_radius then
            do result2 <- ball_rec_limit limit' st q eps inclusive l result1;
            if leb (gap dist v_radius) eps then ball_rec_limit limit' st q eps inclusive r result2 else Ok result2
          else
            do result2 <- ball_rec_limit limit' st q eps inclusive r result1;
            if leb (gap dist v_radius) eps then ball_rec_limit limit' st q eps inclusive l result2 else Ok result2
      end
  end.

(** vptree_hier/knn_search.py:65-90 [_search_rec]. *)
Fixpoint knn_rec_limit (limit : nat) (st : varr) (k : nat) (q : T) (t : htree) (h : list (D * T)) : res (list (D * T)) :=
  match limit with
  | 0 => Err OutOfFuel
  | S limit' =>
      match t with
      | HLeaf s e =>
          do xs <- get_points dataset st s e;
          for_each xs (fun x h0 => knn_offer ltb k (metric q x) x h0) h
      | HNode v_radius v_point l r =>
          let dist := metric v_point q in
          do h1 <- knn_offer ltb k dist v_point h;
          let near h2 := match get_radius k h2 with
                         | None => true | Some rad => leb (gap dist v_radius) rad end in
          if leb dist v_radius then
            do h2 <- knn_rec_limit limit' st k q l h1;
            if near h2 then knn_rec_limit limit' st k q r h2 else Ok h2
          else
            do h2 <- knn_rec_limit limit' st k q r h1;
            if near h2 then knn_rec_limit limit' st k q l h2 else Ok h2
      end
  end.
Definition knn_hier_limit (limit : nat) (t : htree) (st : varr) (q : T) (k : nat) : res (list T) :=
  do h <- knn_rec_limit limit st k q t [];
  do r <- get_items ltb k h;
  Ok (snd r).
End Depth.
