(** What the aggregations of the former web application should give. *)
From Coq Require Import Reals List Sorting.Permutation.
From Verif Require Import Base SpecMetric ModelDraw.
Import ListNotations.
Open Scope list_scope. Open Scope nat_scope.

Definition xr_dec : forall a b : xr, {a = b} + {a <> b}.
Proof. intros [| |a|] [| |b|]; try (left; reflexivity); try (right; discriminate).
  destruct (Req_EM_T a b) as [E|N]; [left; exact (f_equal XFin E)|right; congruence]. Defined.
(** How often a value occurs. *)
Definition occ (x : xr) (l : list xr) : nat := count_occ xr_dec l x.
(** The order of numbers, missing values last. *)
Definition no_later (x y : xr) : Prop :=
  match x, y with
  | _, XNan => True
  | XNan, _ => False
  | XNeg, _ | _, XPos => True
  | XFin a, XFin b => (a <= b)%R
  | _, _ => False
  end.
(** The least of the most frequent values. *)
Definition is_mode (l : list xr) (x : xr) : Prop :=
  In x l /\ (forall y, In y l -> occ y l <= occ x l) /\ (forall y, In y l -> occ y l = occ x l -> no_later x y).

(** Numbers and missing values, and the numbers among them. *)
Definition numbers (l : list xr) : Prop := forall x, In x l -> x = XNan \/ exists r, x = XFin r.
Fixpoint reals (l : list xr) : list R :=
  match l with [] => [] | XFin r :: l => r :: reals l | _ :: l => reals l end.
(** How many are below and above. *)
Definition below (v : R) (rs : list R) : nat := length (filter (fun r => Rltb r v) rs).
Definition above (v : R) (rs : list R) : nat := length (filter (fun r => Rltb v r) rs).
Definition least (rs : list R) (v : R) : Prop := In v rs /\ forall r, In r rs -> (v <= r)%R.
Definition greatest (rs : list R) (v : R) : Prop := In v rs /\ forall r, In r rs -> (r <= v)%R.
(** The mean and the mean squared deviation. *)
Definition total (rs : list R) : R := fold_right Rplus 0%R rs.
Definition mean_real (rs : list R) : R := (total rs / INR (length rs))%R.
Definition variance (rs : list R) : R := mean_real (map (fun r => ((r - mean_real rs) * (r - mean_real rs))%R) rs).
(** Applying a function to the numbers. *)
Definition on_numbers (f : R -> R) (x : xr) : xr := match x with XFin r => XFin (f r) | _ => x end.
