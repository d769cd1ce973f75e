(** C11, C12, C13: union-find. *)
From Verif Require Import Base Dict ModelUnionFind SpecUnionFind UnionFindProp.

(** C11. After any history of calls on known elements, [find] results coincide
    exactly on the equivalence generated by the united pairs, and the result of
    [find] is an element of the same class. *)
Theorem C11_union_find_equivalence :
  forall (A : Type) (eqb : A -> A -> bool), decides_eq eqb ->
  forall (items : list A) (ops : list (uf_op A)), only_mentions items ops ->
  exists outs u, uf_run eqb (uf_init eqb (Reusable items)) ops = Ok (outs, u) /\
    length outs = length ops /\
    forall x y, In x items -> In y items ->
      exists rx ux ry uy, uf_find eqb u x = Ok (rx, ux) /\ uf_find eqb u y = Ok (ry, uy) /\
        In rx items /\ generated (united ops) x rx /\
        (rx = ry <-> generated (united ops) x y).
Proof. exact @uf_equivalence. Qed.
Print Assumptions C11_union_find_equivalence.

(** C11. A call of [find] does not change the answer of any later [find]. *)
Theorem C11_find_preserves_answers :
  forall (A : Type) (eqb : A -> A -> bool), decides_eq eqb ->
  forall (items : list A) (ops : list (uf_op A)) outs u x r u',
  only_mentions items ops ->
  uf_run eqb (uf_init eqb (Reusable items)) ops = Ok (outs, u) ->
  uf_find eqb u x = Ok (r, u') ->
  forall y, In y items -> exists ry u1 u2, uf_find eqb u y = Ok (ry, u1) /\ uf_find eqb u' y = Ok (ry, u2).
Proof. exact @uf_find_stable. Qed.
Print Assumptions C11_find_preserves_answers.

(** C11. [union] returns the representative that [find] gives to both arguments. *)
Theorem C11_union_returns_representative :
  forall (A : Type) (eqb : A -> A -> bool), decides_eq eqb ->
  forall (items : list A) (ops : list (uf_op A)) outs u x y,
  only_mentions items ops ->
  uf_run eqb (uf_init eqb (Reusable items)) ops = Ok (outs, u) ->
  In x items -> In y items ->
  exists r u' ux uy, uf_union eqb u x y = Ok (r, u') /\
    uf_find eqb u' x = Ok (r, ux) /\ uf_find eqb u' y = Ok (r, uy).
Proof. exact @uf_union_representative. Qed.
Print Assumptions C11_union_returns_representative.

(** C12. [find] follows at most log2(n) parent links, [n] the number of
    distinct elements. *)
Theorem C12_find_logarithmic :
  forall (A : Type) (eqb : A -> A -> bool), decides_eq eqb ->
  forall (items : list A) (ops : list (uf_op A)) outs u,
  only_mentions items ops ->
  uf_run eqb (uf_init eqb (Reusable items)) ops = Ok (outs, u) ->
  forall x, In x items ->
  exists n r u', links (dget eqb (uf_parent u)) x n r /\ uf_find eqb u x = Ok (r, u') /\
    forall distinct, (forall a, In a distinct <-> In a items) -> n <= Nat.log2 (length distinct).
Proof. exact @uf_depth. Qed.
Print Assumptions C12_find_logarithmic.

(** C12. Unknown elements raise [KeyError]. *)
Theorem C12_unknown_key_error :
  forall (A : Type) (eqb : A -> A -> bool), decides_eq eqb ->
  forall (items : list A) (ops : list (uf_op A)) outs u x,
  only_mentions items ops ->
  uf_run eqb (uf_init eqb (Reusable items)) ops = Ok (outs, u) ->
  ~ In x items ->
  uf_find eqb u x = Err KeyError /\
  (forall y, uf_union eqb u x y = Err KeyError) /\
  (forall y, uf_union eqb u y x = Err KeyError).
Proof. exact @uf_unknown. Qed.
Print Assumptions C12_unknown_key_error.

(** Non-vacuity: a history on five elements, ending in two classes plus one. *)
Example C11_hypotheses_met :
  only_mentions [1; 2; 3; 4; 5] [UUnion 1 2; UUnion 3 4; UFind 2; UUnion 2 4] /\
  exists u, uf_run Nat.eqb (uf_init Nat.eqb (Reusable [1; 2; 3; 4; 5]))
              [UUnion 1 2; UUnion 3 4; UFind 2; UUnion 2 4] = Ok ([1; 3; 1; 1], u).
Proof.
  split.
  - intros o x Ho Hx. simpl in Ho.
    repeat (destruct Ho as [<-|Ho]; [simpl in Hx; repeat (destruct Hx as [<-|Hx]; [simpl; tauto|]); contradiction|]).
    contradiction.
  - eexists. vm_compute. reflexivity.
Qed.

(** C13. A constructor argument that can be iterated again works (C11); for a
    one-shot iterator every union of two different elements fails. *)
Theorem C13_one_shot_iterator_breaks_union :
  forall (A : Type) (eqb : A -> A -> bool), decides_eq eqb ->
  forall (l : list A) x y, In x l -> In y l -> x <> y ->
  uf_union eqb (uf_init eqb (OneShot l)) x y = Err KeyError.
Proof. exact @uf_oneshot. Qed.
Print Assumptions C13_one_shot_iterator_breaks_union.

(** C13. "Works for every iterable" is false: same elements, same call, one
    succeeds and the other raises. *)
Theorem C13_any_iterable_refuted :
  exists (l : list nat) x y r u,
    uf_union Nat.eqb (uf_init Nat.eqb (Reusable l)) x y = Ok (r, u) /\
    uf_union Nat.eqb (uf_init Nat.eqb (OneShot l)) x y = Err KeyError.
Proof. exists [0; 1], 0, 1. eexists _, _. split; vm_compute; reflexivity. Qed.
Print Assumptions C13_any_iterable_refuted.
