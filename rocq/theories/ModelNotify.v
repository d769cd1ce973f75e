(** Model of the notifications of src/tdamapper/app.py: what a page tells about
    running and drawing. Adds to the page of ModelApp the notifications shown so
    far and, for every computation, the one that tells about it. *)
From Coq Require Import String.
From Verif Require Import Base ModelArith ModelCore ModelPlotly ModelApp.
Open Scope nat_scope.

(** app.py:889-901, 903-918: message, type and spinner of a [ui.notification]. *)
Inductive kind : Type := Ongoing | Positive | Warning | Error | Info.
Record note : Type := mknote { n_message : string; n_kind : kind; n_spinner : bool }.
(** [notification_running_start]. *)
Definition started (m : string) : note := mknote m Ongoing true.
(** [notification_running_stop]. *)
Definition stopped (m : string) (k : kind) : note := mknote m k false.
Fixpoint set_note (i : nat) (x : note) (l : list note) : list note :=
  match l, i with
  | [], _ => []
  | _ :: l, O => x :: l
  | y :: l, S i => y :: set_note i x l
  end.

Section Notify.
Variable A : arith.
Notation num := (num A).
Variable missing : num -> bool.
Variable nan : num.
Variable trunc : num -> res Z.
Variables pca umap : Z -> matrix A -> res (matrix A).
Variable scaler : matrix A -> res (matrix A).
Variable mapper_fit : cover_spec A -> clust_spec A -> matrix A -> matrix A -> res graph.
Variable CS : Type.
Variable get_colorscale : string -> res CS.
Variable plotly_cmap : string -> option string.
Variable str_num : num -> string.
Variable layout_of : Z -> Z -> nat -> graph -> list (list num).
Variables digits iris : frame A * frame A.
(** The text of an exception. *)
Variable str_exn : exn -> string.
Notation page := (page A).
Notation event := (event A).
Notation step := (step A missing nan trunc pca umap scaler mapper_fit CS get_colorscale plotly_cmap str_num layout_of digits iris).
Notation run_mapper := (run_mapper A nan pca umap scaler mapper_fit).
Notation draw := (create_mapper_figure A missing nan CS get_colorscale plotly_cmap str_num layout_of).

(** The page, the notifications of running and drawing in the order they were
    started, and for each run and each drawing being computed the number of its
    notification; for a drawing also that of the run that waits for it. The short
    messages of [ui.notify] are listed, too. *)
Record npage : Type := mknpage {
  np_page : page;
  np_notes : list note;
  np_runs : list nat;
  np_drawings : list (nat * option nat);
  np_said : list (string * kind) }.
Definition new_npage : npage := mknpage new_page [] [] [] [].

Definition run_failed (e : exn) : note := stopped ("Run Mapper failed: " ++ str_exn e)%string Error.

(** app.py:954-957: the exception of a drawing reaches the run that waits for it. *)
Definition tell_run (r : option nat) (e : exn) (ns : list note) : list note :=
  match r with None => ns | Some i => set_note i (run_failed e) ns end.

(** app.py:969-987 [async_draw_mapper] up to the [await]. Returns the notifications
    and the new computation, if one is started. *)
Definition start_draw_notes (c : controls A) (p : page) (r : option nat) (ns : list note) : list note * list (nat * option nat) :=
  let i := length ns in
  match get_mapper_config A trunc c with
  | Err e => (tell_run r e (ns ++ [started "Drawing Mapper..."]), [])
  | Ok _ =>
      match is_empty (get_frame A (p_df p)), p_graph p with
      | false, Some _ => (ns ++ [started "Drawing Mapper..."], [(i, r)])
      | _, _ => (ns ++ [stopped "Draw Mapper failed: no Mapper graph found, please run Mapper first." Warning], [])
      end
  end.

(** app.py:863-887: the message at the end of a load. [SUnknown] stands for an
    unknown example and for an unknown load type, whose messages differ by a word:
    here the one of the unknown load type. An upload without a file is not an event. *)
Definition loaded_message (p : page) : string * kind :=
  if is_empty (get_frame A (p_df p)) then ("Load data failed: no data found, please upload a file first."%string, Warning)
  else ("Load data completed."%string, Positive).

Definition nstep (e : event) (q : npage) : npage :=
  let p := np_page q in
  let p' := step e p in
  match e with
  | Upload _ => mknpage p' (np_notes q) (np_runs q) (np_drawings q) (np_said q ++ [("File upload completed."%string, Info)])
  | Load SUnknown => mknpage p' (np_notes q) (np_runs q) (np_drawings q) (np_said q ++ [("Load data failed: unknown load type selected."%string, Warning)])
  | Load _ => mknpage p' (np_notes q) (np_runs q) (np_drawings q) (np_said q ++ [loaded_message p'])
  (* app.py:930-940 *)
  | Run c =>
      if is_empty (get_frame A (p_df p)) then
        mknpage p' (np_notes q ++ [stopped "Run Mapper failed: no data found, please load data first." Warning]) (np_runs q) (np_drawings q) (np_said q)
      else
        match get_mapper_config A trunc c with
        | Err _ => mknpage p' (np_notes q ++ [started "Running Mapper..."]) (np_runs q) (np_drawings q) (np_said q)
        | Ok _ => mknpage p' (np_notes q ++ [started "Running Mapper..."]) (np_runs q ++ [length (np_notes q)]) (np_drawings q) (np_said q)
        end
  (* app.py:940-957 *)
  | RunDone k c =>
      match nth_error (p_runs p) k, nth_error (np_runs q) k with
      | Some (df, cfg), Some i =>
          let runs := remove_nth k (np_runs q) in
          match run_mapper df cfg with
          | Err e => mknpage p' (set_note i (run_failed e) (np_notes q)) runs (np_drawings q) (np_said q)
          | Ok None => mknpage p' (set_note i (stopped "Run Mapper failed: something went wrong." Error) (np_notes q)) runs (np_drawings q) (np_said q)
          | Ok (Some _) =>
              let '(ns, ds) := start_draw_notes c p' (Some i) (set_note i (stopped "Run Mapper completed." Positive) (np_notes q)) in
              mknpage p' ns runs (np_drawings q ++ ds) (np_said q)
          end
      | _, _ => q
      end
  | Redraw c =>
      let '(ns, ds) := start_draw_notes c p' None (np_notes q) in
      mknpage p' ns (np_runs q) (np_drawings q ++ ds) (np_said q)
  (* app.py:989-1010; an exception leaves [async_draw_mapper] *)
  | DrawDone k =>
      match nth_error (p_drawings p) k, nth_error (np_drawings q) k with
      | Some d, Some (i, r) =>
          let ds := remove_nth k (np_drawings q) in
          match draw (d_X d) (d_y d) (d_target d) (d_graph d) (d_config d) with
          | Ok _ => mknpage p' (set_note i (stopped "Draw Mapper completed." Positive) (np_notes q)) (np_runs q) ds (np_said q)
          | Err e => mknpage p' (tell_run r e (np_notes q)) (np_runs q) ds (np_said q)
          end
      | _, _ => q
      end
  end.
Definition nsteps (es : list event) (q : npage) : npage := fold_left (fun q e => nstep e q) es q.
End Notify.

Arguments np_page {A}.
Arguments np_notes {A}.
Arguments np_runs {A}.
Arguments np_drawings {A}.
Arguments np_said {A}.
