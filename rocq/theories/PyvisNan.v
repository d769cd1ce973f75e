(** The colour limits of pyvis in double precision, when some nodes have no value. *)
From Coq Require Import Reals Lra Lia.
From Flocq Require Import Core BinarySingleNaN.
From Verif Require Import Base SpecMetric ModelArith ModelFloat SpecDouble FloatFacts ModelDraw.

Definition number_or_nan (c : b64) : Prop := finite c \/ c = B754_nan.
Notation step := (color_step BA).
Notation inf := (B754_infinity false : b64).
Notation minf := (B754_infinity true : b64).

Lemma step_nan p : step p B754_nan = p.
Proof.
  unfold color_step. change (lt_b BA) with b_lt. destruct p as [a b]. cbn [fst snd].
  replace (b_lt B754_nan a) with false by (destruct a; reflexivity). replace (b_lt b B754_nan) with false by (destruct b as [| | |[]]; reflexivity).
  reflexivity.
Qed.
Lemma step_first (c : num BA) : finite c -> step (@pair (num BA) (num BA) inf minf) c = (c, c).
Proof. intro H. destruct c as [[]| | |[]]; try discriminate H; reflexivity. Qed.

Lemma bounds_go l : Forall number_or_nan l -> forall a b, finite a -> finite b ->
  exists lo hi : b64, fold_left step l (a, b) = (lo, hi) /\ finite lo /\ finite hi /\ In lo (a :: l) /\ In hi (b :: l) /\
    (value lo <= value a)%R /\ (value b <= value hi)%R /\ forall c, In c l -> finite c -> (value lo <= value c <= value hi)%R.
Proof.
  induction 1 as [|c l Hc _ IH]; intros a b Fa Fb.
  - exists a, b. split; [reflexivity|]. split; [exact Fa|]. split; [exact Fb|]. split; [left; reflexivity|]. split; [left; reflexivity|].
    split; [lra|]. split; [lra|]. intros c [].
  - cbn [fold_left]. destruct Hc as [Hc| ->].
    + assert (S1 : step (a, b) c = (if Rltb (value c) (value a) then c else a, if Rltb (value b) (value c) then c else b)).
      { unfold color_step. change (lt_b BA) with b_lt. cbn [fst snd].
        rewrite (b_lt_val c a Hc Fa), (b_lt_val b c Fb Hc). reflexivity. }
      rewrite S1. unfold Rltb. destruct (Rlt_dec (value c) (value a)) as [L1|L1], (Rlt_dec (value b) (value c)) as [L2|L2];
      match goal with |- context[fold_left _ _ (?u, ?v)] => destruct (IH u v) as [lo [hi [E [F1 [F2 [I1 [I2 [V1 [V2 V3]]]]]]]]]; [assumption|assumption|] end;
      exists lo, hi; (split; [exact E|]); (split; [exact F1|]); (split; [exact F2|]); (split; [simpl in *; tauto|]); (split; [simpl in *; tauto|]);
      (split; [lra|]); (split; [lra|]); intros d [<-|I] Fd; try lra; apply V3; assumption.
    + rewrite step_nan. destruct (IH a b Fa Fb) as [lo [hi [E [F1 [F2 [I1 [I2 [V1 [V2 V3]]]]]]]]].
      exists lo, hi. split; [exact E|]. split; [exact F1|]. split; [exact F2|]. split; [simpl in *; tauto|]. split; [simpl in *; tauto|].
      split; [exact V1|]. split; [exact V2|]. intros d [<-|I] Fd; [discriminate Fd|]. apply V3; assumption.
Qed.
Lemma bounds_nan l : Forall number_or_nan l -> (exists c, In c l /\ finite c) ->
  exists lo hi : b64, color_bounds BA inf minf l = (lo, hi) /\ finite lo /\ finite hi /\ In lo l /\ In hi l /\
    forall c, In c l -> finite c -> (value lo <= value c <= value hi)%R.
Proof.
  unfold color_bounds. induction 1 as [|c l Hc Hl IH]; intros [d [Id Fd]]; [destruct Id|]. cbn [fold_left].
  destruct Hc as [Hc| ->].
  - rewrite (step_first c Hc). destruct (bounds_go l Hl c c Hc Hc) as [lo [hi [E [F1 [F2 [I1 [I2 [V1 [V2 V3]]]]]]]]].
    exists lo, hi. split; [exact E|]. split; [exact F1|]. split; [exact F2|]. split; [exact I1|]. split; [exact I2|].
    intros e [<-|I] Fe; [lra|]. apply V3; assumption.
  - rewrite step_nan. destruct IH as [lo [hi [E [F1 [F2 [I1 [I2 V]]]]]]].
    { exists d. split; [|exact Fd]. destruct Id as [<-|Id]; [discriminate Fd|exact Id]. }
    exists lo, hi. split; [exact E|]. split; [exact F1|]. split; [exact F2|]. split; [right; exact I1|]. split; [right; exact I2|].
    intros e [<-|I] Fe; [discriminate Fe|]. apply V; assumption.
Qed.

(** [min(1.0, nan)] is 1.0. *)
Lemma color_of_nan (lo hi : b64) : finite lo -> finite hi ->
  pv_color_of BA (lo, hi) B754_nan = if Req_EM_T (value lo) (value hi) then b_div (b_ofz 1) (b_ofz 2) else b_ofz 1.
Proof.
  intros Fl Fh. unfold pv_color_of. cbn [fst snd].
  assert (E : eq_b BA hi lo = if Req_EM_T (value lo) (value hi) then true else false).
  { unfold eq_b. change (le_b BA) with b_le. rewrite (b_le_val hi lo Fh Fl), (b_le_val lo hi Fl Fh). unfold Rleb, value in *.
    destruct (Rle_dec (rv hi) (rv lo)), (Rle_dec (rv lo) (rv hi)), (Req_EM_T (rv lo) (rv hi)); cbn [andb]; try reflexivity; lra. }
  rewrite E. destruct (Req_EM_T (value lo) (value hi)).
  - unfold clamp01. change (lt_b BA) with b_lt. change (div BA) with b_div. change (ofz BA) with b_ofz.
    replace (b_lt (b_div (b_ofz 1) (b_ofz 2)) (b_ofz 1)) with true by (vm_compute; reflexivity).
    replace (b_lt (b_ofz 0) (b_div (b_ofz 1) (b_ofz 2))) with true by (vm_compute; reflexivity). reflexivity.
  - assert (D : div BA (sub BA B754_nan lo) (sub BA hi lo) = B754_nan).
    { change (sub BA B754_nan lo) with (b_minus B754_nan lo). replace (b_minus B754_nan lo) with (B754_nan : b64) by (destruct lo; reflexivity).
      change (div BA) with b_div. generalize (sub BA hi lo). intro y. change (num BA) with b64 in y. destruct y; reflexivity. }
    rewrite D. unfold clamp01. change (lt_b BA) with b_lt. change (ofz BA) with b_ofz.
    replace (b_lt B754_nan (b_ofz 1)) with false by (vm_compute; reflexivity).
    replace (b_lt (b_ofz 0) (b_ofz 1)) with true by (vm_compute; reflexivity). reflexivity.
Qed.
