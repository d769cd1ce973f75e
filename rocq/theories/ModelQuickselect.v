(** Model of src/tdamapper/utils/quickselect.py.

    The three arrays (data, extra1, extra2) are one state value. [None] for an
    extra array is the Python [None] default, i.e. [use_extra = False]
    (quickselect.py:80-93; the public wrappers quickselect.py:96-157 only supply these
    defaults). Values are compared with [ltb], the Python [<].
    numba's unchecked accesses are modelled as checked ones; the theorems show
    that no access is out of range. *)
From Verif Require Import Base.

Section Quickselect.
Context {K A B : Type}.
Variable ltb : K -> K -> bool.

Record qstate : Type := mkq {
  qdata : list K;
  qextra1 : option (list A);
  qextra2 : option (list B) }.

(** quickselect.py:12-13 [swap]: both reads happen before both writes. *)
Definition swap {X : Type} (arr : list X) (i j : nat) : res (list X) :=
  do xj <- rd arr j;
  do xi <- rd arr i;
  do arr1 <- wr arr i xj;
  wr arr1 j xi.

Definition swap_opt {X : Type} (arr : option (list X)) (i j : nat) : res (option (list X)) :=
  match arr with
  | None => Ok None
  | Some l => do l' <- swap l i j; Ok (Some l')
  end.

(** quickselect.py:17-30 [_swap_all]. *)
Definition swap_all (st : qstate) (i j : nat) : res qstate :=
  do d <- swap (qdata st) i j;
  do e1 <- swap_opt (qextra1 st) i j;
  do e2 <- swap_opt (qextra2 st) i j;
  Ok (mkq d e1 e2).

(** quickselect.py:45-49, body of the loop of [_partition]. *)
Definition partition_step (p : K) (j : nat) (s : nat * qstate) : res (nat * qstate) :=
  let '(higher, st) := s in
  do j_ord <- rd (qdata st) j;
  if ltb j_ord p then
    do st' <- swap_all st higher j; Ok (S higher, st')
  else Ok (higher, st).

(** quickselect.py:34-50 [_partition]. *)
Definition partition (st : qstate) (start fin : nat) (p : K) : res (nat * qstate) :=
  for_range (fin - start) start (partition_step p) (start, st).

(** quickselect.py:67-77, the [while higher != k + 1] loop of [_quickselect].
    [higher = -1] on entry never equals [k + 1], so the loop body runs first. *)
Fixpoint qs_loop (fuel : nat) (st : qstate) (start fin k : nat) : res qstate :=
  match fuel with
  | 0 => Err OutOfFuel
  | S fuel' =>
      do p <- rd (qdata st) k;
      do st1 <- swap_all st start k;
      do hs <- partition st1 (S start) fin p;
      let '(higher, st2) := hs in
      do st3 <- swap_all st2 start (higher - 1);
      if higher =? S k then Ok st3
      else if k <=? higher - 1 then qs_loop fuel' st3 start higher k
      else qs_loop fuel' st3 higher fin k
  end.

(** quickselect.py:54-77 [_quickselect] (and the wrapper 138-157).
    The fuel is shown to be sufficient in [QuickselectFacts]. *)
Definition quickselect (st : qstate) (start fin k : nat) : res qstate :=
  if (k <? start) || (fin <=? k) then Ok st
  else qs_loop (2 * (fin - start) + 1) st start fin k.

End Quickselect.
Arguments qstate : clear implicits.
Arguments mkq {K A B}.
