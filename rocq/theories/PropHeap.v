(** C14, C15: the max-heap. *)
From Verif Require Import Base SpecArray ModelHeap SpecHeap QuickselectProp HeapProp.

(** C14. Every history of [add] and [pop] on a new heap behaves as an abstract
    priority queue; [top], [len] and [is_empty] agree with its contents. *)
Theorem C14_heap_is_priority_queue :
  forall (K V : Type) (ltb : K -> K -> bool), strict_weak ltb ->
  forall ops : list (@heap_op K V),
  exists outs h b,
    heap_run ltb [] ops = Ok (outs, h) /\
    pq_run ltb [] ops outs b /\ Permutation b h /\
    heap_len h = length b /\ heap_is_empty h = (length b =? 0) /\
    (heap_top h = None -> b = []) /\ (forall n, heap_top h = Some n -> is_max ltb n b).
Proof. exact @heap_queue. Qed.
Print Assumptions C14_heap_is_priority_queue.

(** C14. Popping a reachable heap until it is empty lists its entries in
    non-increasing key order. *)
Theorem C14_heap_drain_sorted :
  forall (K V : Type) (ltb : K -> K -> bool), strict_weak ltb ->
  forall (ops : list (@heap_op K V)) outs h,
  heap_run ltb [] ops = Ok (outs, h) ->
  exists l, heap_run ltb h (repeat OpPop (length h)) = Ok (map Some l, []) /\
    Permutation l h /\ descending ltb l.
Proof. exact @heap_drain. Qed.
Print Assumptions C14_heap_drain_sorted.

Example C14_example :
  heap_run Nat.ltb [] [OpAdd 3 1; OpAdd 5 2; OpPop; OpAdd 4 3; OpAdd 4 4; OpPop]
  = Ok ([None; None; Some (5, 2); None; None; Some (4, 3)], [(4, 4); (3, 1)]).
Proof. vm_compute. reflexivity. Qed.

(** C15. One loop over the heap visits every entry exactly once. *)
Theorem C15_single_iteration :
  forall (K V : Type) (m : mheap K V),
  mh_list m = Ok (mkmh (mh_heap m) Exhausted, mh_heap m).
Proof. exact @mh_list_all. Qed.
Print Assumptions C15_single_iteration.

(** C15. Two nested loops over the same heap pair only the first entry with the
    others: the inner loop consumes the cursor of the outer one. *)
Theorem C15_nested_iteration :
  forall (K V : Type) (m : mheap K V),
  mh_pairs m = Ok (mkmh (mh_heap m) Exhausted,
    match mh_heap m with
    | [] => []
    | a :: _ => map (fun b => (a, b)) (mh_heap m)
    end).
Proof. exact @mh_pairs_row. Qed.
Print Assumptions C15_nested_iteration.

(** C15. So the nested loop does not enumerate all pairs, on a heap that a
    client can build. *)
Theorem C15_nested_iteration_refuted :
  exists (ops : list (@heap_op nat nat)) outs h m' out,
    heap_run Nat.ltb [] ops = Ok (outs, h) /\
    mh_pairs (mkmh h Unset) = Ok (m', out) /\ ~ Permutation out (list_prod h h).
Proof.
  exists [OpAdd 1 10; OpAdd 2 20], [None; None], [(2, 20); (1, 10)], (mkmh [(2, 20); (1, 10)] Exhausted),
    [((2, 20), (2, 20)); ((2, 20), (1, 10))].
  split; [vm_compute; reflexivity|]. split; [vm_compute; reflexivity|].
  intro P. apply Permutation_length in P. vm_compute in P. discriminate.
Qed.
Print Assumptions C15_nested_iteration_refuted.
