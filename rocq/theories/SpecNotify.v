(** What C60 says about the notifications of the app, apart from how they are kept. *)
From Coq Require Import String.
From Verif Require Import Base ModelArith ModelCore ModelPlotly ModelApp ModelNotify.
Open Scope nat_scope.

(** How many notifications still show a spinner. *)
Definition spinning (ns : list note) : nat := length (filter n_spinner ns).

(** Something raised that the handler of the event does not report: the values of the
    controls could not be read, or no figure could be made. [conf] reads the controls,
    [run] runs Mapper, [draw] makes the figure. *)
Section Abandoned.
Variable A : arith.
Variable F : Type.
Variable conf : controls A -> res (config A).
Variable run : frame A -> config A -> res (option (graph * frame A)).
Variable draw : drawing A -> res F.
Inductive abandons : event A -> page A -> Prop :=
| ab_run c p e : is_empty (get_frame A (p_df p)) = false -> conf c = Err e -> abandons (Run c) p
| ab_redraw c p e : conf c = Err e -> abandons (Redraw c) p
| ab_run_done k c p df cfg gy e : nth_error (p_runs p) k = Some (df, cfg) -> run df cfg = Ok (Some gy) -> conf c = Err e -> abandons (RunDone k c) p
| ab_draw_done k p d e : nth_error (p_drawings p) k = Some d -> draw d = Err e -> abandons (DrawDone k) p.

(** [abandoned step p es n]: of the events [es], starting from page [p], [n] are abandoned. *)
Variable step : event A -> page A -> page A.
Inductive abandoned : page A -> list (event A) -> nat -> Prop :=
| abd_nil p : abandoned p [] 0
| abd_yes p e es n : abandons e p -> abandoned (step e p) es n -> abandoned p (e :: es) (S n)
| abd_no p e es n : ~ abandons e p -> abandoned (step e p) es n -> abandoned p (e :: es) n.
End Abandoned.

(** What the notification of a run says once the run came back. *)
Inductive tells_run (str_exn : exn -> string) {X : Type} : res (option X) -> note -> Prop :=
| tr_ok x : tells_run str_exn (Ok (Some x)) (mknote "Run Mapper completed." Positive false)
| tr_none : tells_run str_exn (Ok None) (mknote "Run Mapper failed: something went wrong." Error false)
| tr_err e : tells_run str_exn (Err e) (mknote ("Run Mapper failed: " ++ str_exn e) Error false).
