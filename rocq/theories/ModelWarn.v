(** The warning of [BaseCubicalCover.fit] (cover.py:391-392) through [warn_user]
    (_common.py:39-43). What [warnings.warn] does is up to the filters of the
    interpreter: the message is shown, or dropped, or raised as an exception. *)
From Coq Require Import String.
From Verif Require Import Base ModelArith ModelCover.

Inductive warning_filter : Type := Show | Drop | Raise.
(** [UserWarning], raised by the filter "error". *)
Definition user_warning : exn := UserError 0.

(** _common.py:39-43 [warn_user]: the messages shown, and how the call ends. *)
Definition warn_user (f : warning_filter) (msg : string) : list string * res unit :=
  match f with
  | Show => ([msg], Ok tt)
  | Drop => ([], Ok tt)
  | Raise => ([], Err user_warning)
  end.

Definition overlap_message : string := "The parameter overlap_frac is expected to be <= 0.5".

Section Fit.
Variable A : arith.
Variable fin_eps : num A.

(** cover.py:370-404 [fit] with its warning; the rest is [cubical_fit]. The
    parameter is checked (lines 389-390) before the warning. *)
Definition cubical_fit_warn (f : warning_filter) (c : cubical A) (X : list (list (num A)))
    : list string * res (list (num A) -> res (list nat)) :=
  match X with
  | [] => ([], cubical_fit A fin_eps c X)
  | _ =>
      match match cu_overlap_frac A c with
            | None => get_overlap_frac A (length (hd [] X)) (half A)
            | Some o => Ok o
            end with
      | Err e => ([], Err e)
      | Ok overlap =>
          if le_b A overlap (zero A) then ([], Err ValueError)
          else if lt_b A (half A) overlap then
            let '(out, r) := warn_user f overlap_message in
            (out, do u <- r; cubical_fit A fin_eps c X)
          else ([], cubical_fit A fin_eps c X)
      end
  end.
End Fit.
