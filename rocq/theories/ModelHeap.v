(** Model of src/tdamapper/utils/heap.py.

    A [_HeapNode] (heap.py:44-79) is a pair (key, value); nodes are compared by
    key with Python's [<], here [ltb]. *)
From Verif Require Import Base ModelQuickselect.

Section Heap.
Context {K V : Type}.
Variable ltb : K -> K -> bool.
Notation node := (K * V)%type.

(** heap.py:69-70 [_HeapNode.__lt__]; heap.py:30-36 are the comparisons required of keys. *)
Definition node_lt (a b : node) : bool := ltb (fst a) (fst b).

(** heap.py:13-22 [_left], [_right], [_parent]; on [nat], [0 - 1 = 0] makes
    [max(0, (i - 1) // 2)] equal to [(i - 1) / 2]. *)
Definition left_ (i : nat) : nat := 2 * i + 1.
Definition right_ (i : nat) : nat := 2 * i + 2.
Definition parent_ (i : nat) : nat := (i - 1) / 2.

(** heap.py:151-166 [_get_local_max]. *)
Definition get_local_max (h : list node) (i : nat) : res nat :=
  let left := left_ i in
  let right := right_ i in
  if length h <=? left then Ok i
  else if length h <=? right then
    do x <- rd h i;
    do l <- rd h left;
    if node_lt x l then Ok left else Ok i
  else
    do l <- rd h left;
    do r <- rd h right;
    let max_child := if node_lt l r then right else left in
    do x <- rd h i;
    do m <- rd h max_child;
    if node_lt x m then Ok max_child else Ok i.

(** heap.py:168-176 [_fix_down]; the swap is a simultaneous assignment. *)
Definition fix_down (h : list node) (i : nat) : res (nat * list node) :=
  do lm <- get_local_max h i;
  if i <? lm then do h' <- swap h i lm; Ok (lm, h') else Ok (i, h).

(** heap.py:178-183 [_fix_up]. *)
Definition fix_up (h : list node) (i : nat) : res (nat * list node) :=
  let parent := parent_ i in
  do p <- rd h parent;
  do x <- rd h i;
  if node_lt p x then do h' <- swap h i parent; Ok (parent, h') else Ok (i, h).

(** heap.py:188-191, loop of [_bubble_down]. *)
Fixpoint bubble_down (fuel : nat) (h : list node) (current : nat) : res (list node) :=
  match fuel with
  | 0 => Err OutOfFuel
  | S fuel' =>
      do r <- fix_down h current;
      let '(local_max, h') := r in
      if current =? local_max then Ok h' else bubble_down fuel' h' local_max
  end.

(** heap.py:196-199, loop of [_bubble_up]. *)
Fixpoint bubble_up (fuel : nat) (h : list node) (current : nat) : res (list node) :=
  match fuel with
  | 0 => Err OutOfFuel
  | S fuel' =>
      do r <- fix_up h current;
      let '(local_max, h') := r in
      if local_max =? current then Ok h' else bubble_up fuel' h' local_max
  end.

(** heap.py:141-149 [add] (append, then [_bubble_up], 193-199). *)
Definition heap_add (h : list node) (k : K) (v : V) : res (list node) :=
  let h1 := h ++ [(k, v)] in
  bubble_up (length h1) h1 (length h1 - 1).

(** heap.py:115-124 [top]. *)
Definition heap_top (h : list node) : option node :=
  match h with
  | [] => None
  | n :: _ => Some n
  end.

(** heap.py:126-139 [pop]: [None] on an empty heap, otherwise the root, which is
    replaced by the last entry before [_bubble_down] (185-191). *)
Definition heap_pop (h : list node) : res (option node * list node) :=
  match h with
  | [] => Ok (None, [])
  | max_val :: _ =>
      do last <- rd h (length h - 1);
      do h1 <- wr h 0 last;
      let h2 := removelast h1 in
      do h3 <- bubble_down (S (length h2)) h2 0;
      Ok (Some max_val, h3)
  end.

(** heap.py:104-105, 107-113 [__len__], [is_empty]. *)
Definition heap_len (h : list node) : nat := length h.
Definition heap_is_empty (h : list node) : bool := length h =? 0.

(** Operations seen by a client, with their return values. *)
Inductive heap_op : Type :=
| OpAdd (k : K) (v : V)
| OpPop.

Definition heap_step (h : list node) (o : heap_op) : res (option node * list node) :=
  match o with
  | OpAdd k v => do h' <- heap_add h k v; Ok (None, h')
  | OpPop => heap_pop h
  end.

(** A client's history from the empty heap (heap.py:93-94 [__init__]):
    the returned values, and the final heap. *)
Fixpoint heap_run (h : list node) (ops : list heap_op) : res (list (option node) * list node) :=
  match ops with
  | [] => Ok ([], h)
  | o :: ops' =>
      do r <- heap_step h o;
      let '(out, h1) := r in
      do r2 <- heap_run h1 ops';
      let '(outs, h2) := r2 in
      Ok (out :: outs, h2)
  end.

(** The object with its iterator field (heap.py:90-91, 96-102).
    The cursor of a Python list iterator: a position in the live list, or
    [Exhausted] once [StopIteration] has been raised (it then stays so).
    [Unset] means [__iter__] was never called. *)
Inductive cursor : Type := Unset | At (i : nat) | Exhausted.
Record mheap : Type := mkmh { mh_heap : list node; mh_iter : cursor }.

(** heap.py:96-98 [__iter__]: resets the only cursor and returns the heap itself. *)
Definition mh_iter_ (m : mheap) : mheap := mkmh (mh_heap m) (At 0).

(** heap.py:100-102 [__next__]. *)
Definition mh_next (m : mheap) : res (node * mheap) + mheap :=
  match mh_iter m with
  | Unset => inl (Err AttributeError)
  | Exhausted => inr m
  | At i =>
      match nth_error (mh_heap m) i with
      | Some n => inl (Ok (n, mkmh (mh_heap m) (At (S i))))
      | None => inr (mkmh (mh_heap m) Exhausted)
      end
  end.

(** The Python statement [for n in m: st = body(n, st)] after [iter(m)] has been
    called, where the body may itself use the heap object. *)
Fixpoint mh_for {S : Type} (fuel : nat) (body : node -> mheap -> S -> res (mheap * S))
    (m : mheap) (st : S) : res (mheap * S) :=
  match fuel with
  | 0 => Err OutOfFuel
  | Datatypes.S fuel' =>
      match mh_next m with
      | inl (Err e) => Err e
      | inl (Ok (n, m1)) => do r <- body n m1 st; let '(m2, st2) := r in mh_for fuel' body m2 st2
      | inr m1 => Ok (m1, st)
      end
  end.

(** [[n for n in m]] *)
Definition mh_list (m : mheap) : res (mheap * list node) :=
  mh_for (S (length (mh_heap m))) (fun n m1 acc => Ok (m1, acc ++ [n])) (mh_iter_ m) [].

(** [[(a, b) for a in m for b in m]]: the inner [for] calls [iter(m)] again. *)
Definition mh_pairs (m : mheap) : res (mheap * list (node * node)) :=
  mh_for (S (length (mh_heap m)))
    (fun a m1 acc =>
       mh_for (S (length (mh_heap m1))) (fun b m2 acc2 => Ok (m2, acc2 ++ [(a, b)])) (mh_iter_ m1) acc)
    (mh_iter_ m) [].

End Heap.
Arguments mheap : clear implicits.
Arguments mkmh {K V}.
Arguments OpAdd {K V}.
Arguments OpPop {K V}.
