(** The aggregations offered by the former web application (app/streamlit_app.py), on numbers without
    rounding that may be missing or infinite. *)
From Coq Require Import String Reals List ZArith.
From Verif Require Import Base SpecMetric ModelArith ModelDraw ModelOldApp.
Import ListNotations.
Open Scope list_scope. Open Scope nat_scope.

Definition x_isnan (x : xr) : bool := match x with XNan => true | _ => false end.
(** The order of [np.sort]: missing values last. *)
Definition before (x y : xr) : bool := x_isnan y || xle x y.
Definition x_same (x y : xr) : bool := before x y && before y x.
(** [np.unique(arr, return_counts=True)]: the sorted values without repetitions (missing values count as
    equal), and how often each occurs. *)
Definition put_run (x : xr) (r : list (xr * nat)) : list (xr * nat) :=
  match r with
  | (y, n) :: r' => if x_same x y then (y, S n) :: r' else (x, 1) :: r
  | [] => [(x, 1)]
  end.
Definition unique (l : list xr) : list (xr * nat) := fold_right put_run [] (py_sorted before l).
(** [np.argmax]: the first position of the largest. *)
Fixpoint argmax_from (best i k : nat) (l : list nat) : nat * nat :=
  match l with
  | [] => (best, i)
  | n :: r => if best <? n then argmax_from n k (S k) r else argmax_from best i (S k) r
  end.
Definition argmax (l : list nat) : res nat :=
  match l with [] => Err ValueError | n :: r => Ok (snd (argmax_from n 0 1 r)) end.
(** streamlit_app.py:246-249 [mode]. *)
Definition mode (l : list xr) : res xr :=
  let u := unique l in
  do i <- argmax (map snd u);
  rd (map fst u) i.

(** The values that are not missing. *)
Definition present_values (l : list xr) : list xr := filter (fun x => negb (x_isnan x)) l.
(** Linear interpolation as in NumPy: from the nearer side. *)
Definition lerp (a b : xr) (t : R) : xr :=
  let d := xsub b a in
  if Rltb t (1 / 2) then xadd a (xmul d (XFin t)) else xsub b (xmul d (XFin (1 - t))).
(** streamlit_app.py:252-257 [quantile]: [np.nanquantile(agg, q=q)]. *)
Definition quantile (q : R) (l : list xr) : res xr :=
  if Rltb q 0 || Rltb 1 q then Err ValueError
  else
    let s := py_sorted before (present_values l) in
    match s with
    | [] => Ok XNan
    | _ =>
        let last := length s - 1 in
        let v := (INR last * q)%R in
        if Rleb (INR last) v then rd s last
        else
          let i := Z.to_nat (Int_part v) in
          do a <- rd s i;
          do b <- rd s (S i);
          Ok (lerp a b (v - INR i))
    end.

(** [np.nanmean] and [np.nanstd]. *)
Definition x_sum (l : list xr) : xr := fold_left xadd l (XFin 0).
Definition x_mean (l : list xr) : xr := xdiv (x_sum l) (XFin (INR (length l))).
Definition nan_mean (l : list xr) : res xr :=
  let p := present_values l in
  match p with [] => Ok XNan | _ => Ok (x_mean p) end.
Definition nan_std (l : list xr) : res xr :=
  let p := present_values l in
  match p with
  | [] => Ok XNan
  | _ => let m := x_mean p in Ok (xsqrt (x_mean (map (fun x => xmul (xsub x m) (xsub x m)) p)))
  end.

(** streamlit_app.py:663-693 [plot_agg_input_section]. [round(q, 2)] is given by its hundredths, and
    [text] writes it. *)
Inductive choice : Type := Mean | Std | Mode | Quantile (q : R).
Definition agg_of (c : choice) : list xr -> res xr :=
  match c with Mean => nan_mean | Std => nan_std | Mode => mode | Quantile q => quantile q end.
Definition agg_name (text : Z -> string) (c : choice) : string :=
  match c with
  | Mean => "Mean" | Std => "Std" | Mode => "Mode"
  | Quantile q => "Quantile " ++ text (round_even (q * 100))
  end%string.
