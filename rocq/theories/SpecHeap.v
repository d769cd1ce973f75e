(** Abstract priority queue: an unordered collection of (key, value) entries. *)
From Verif Require Import Base ModelHeap.

(** [n] is an entry of [b] whose key no entry of [b] exceeds. *)
Definition is_max {K V : Type} (ltb : K -> K -> bool) (n : K * V) (b : list (K * V)) : Prop :=
  In n b /\ forall m, In m b -> ltb (fst n) (fst m) = false.

(** Histories of an abstract priority queue: contents before, operations,
    returned values, contents after. Ties may be broken in any way. *)
Inductive pq_run {K V : Type} (ltb : K -> K -> bool) :
  list (K * V) -> list (@heap_op K V) -> list (option (K * V)) -> list (K * V) -> Prop :=
| pq_done b : pq_run ltb b [] [] b
| pq_add b k v ops outs b' :
    pq_run ltb ((k, v) :: b) ops outs b' ->
    pq_run ltb b (OpAdd k v :: ops) (None :: outs) b'
| pq_pop_empty ops outs b' :
    pq_run ltb [] ops outs b' ->
    pq_run ltb [] (OpPop :: ops) (None :: outs) b'
| pq_pop b n b1 ops outs b' :
    is_max ltb n b -> Permutation b (n :: b1) ->
    pq_run ltb b1 ops outs b' ->
    pq_run ltb b (OpPop :: ops) (Some n :: outs) b'.

(** Non-increasing keys. *)
Fixpoint descending {K V : Type} (ltb : K -> K -> bool) (l : list (K * V)) : Prop :=
  match l with
  | [] => True
  | n :: l' => Forall (fun m => ltb (fst n) (fst m) = false) l' /\ descending ltb l'
  end.
