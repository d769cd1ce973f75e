(** Model of [mapper_labels] with [n_jobs > 1] (src/tdamapper/core.py:100-105):
    joblib's threads on the shared heap.

    A step of the machine is one step of one thread. Any number of jobs may run at
    the same time, so every schedule of joblib with any [n_jobs] is among the runs of
    the machine. Nested MapperClustering objects run their own jobs one by one. *)
From Coq Require Import String.
From Verif Require Import Base Dict ModelUnionFind ModelCore ModelObjects ModelValidate ModelLearn.
Open Scope nat_scope.
Open Scope list_scope.

(** [ps_pending]: open sets not yet taken from the generator. [ps_tasks]: the jobs
    dispatched so far, in order, each with what it has still to do. [ps_stop]: the
    exception raised while a job was prepared, which ends the dispatching. *)
Record pstate : Type := mkps {
  ps_heap : heap;
  ps_pending : list (list nat);
  ps_tasks : list (list nat * prog (list Z));
  ps_stop : option exn }.

Section Parallel.
Context {F O : Type}.
Variable is_nan : F -> bool.
Variable is_inf : F -> bool.
Variable to_float : O -> res F.
Notation point := (ndarray F O).
Notation input := (input F O).
Variable classes : nat -> class.
Variable beh : nat -> behaviour F O.
Variables c_tcover c_tclust c_failsafe : nat.

Section Jobs.
Variable fitc : nat -> list point -> prog unit.
Variables (lim : nat) (X : list point) (cl : nat) (after : option exn).

Definition start (h : heap) (opens : list (list nat)) : pstate := mkps h opens [] None.

(** core.py:101-104: [[X[j] for j in local_ids]], then [clone(clustering)], then the
    job is dispatched. joblib takes the jobs from the generator one at a time, under a lock. *)
Inductive step : pstate -> pstate -> Prop :=
| st_dispatch h ids pending tasks xs c h' :
    map_res (rd X) ids = Ok xs -> run (pclone classes lim (VRef cl)) h = (h', Ok c) ->
    step (mkps h (ids :: pending) tasks None) (mkps h' pending (tasks ++ [(ids, job fitc c xs)]) None)
| st_index h ids pending tasks e :
    map_res (rd X) ids = Err e -> step (mkps h (ids :: pending) tasks None) (mkps h (ids :: pending) tasks (Some e))
| st_clone h ids pending tasks xs e h' :
    map_res (rd X) ids = Ok xs -> run (pclone classes lim (VRef cl)) h = (h', Err e) ->
    step (mkps h (ids :: pending) tasks None) (mkps h' (ids :: pending) tasks (Some e))
| st_generator h tasks e :
    after = Some e -> step (mkps h [] tasks None) (mkps h [] tasks (Some e))
| st_job h pending t1 ids upd next t2 s :
    step (mkps h pending (t1 ++ (ids, Act upd next) :: t2) s) (mkps (upd h) pending (t1 ++ (ids, next h) :: t2) s).

Inductive steps : pstate -> pstate -> Prop :=
| ss_refl s : steps s s
| ss_step s1 s2 s3 : steps s1 s2 -> step s2 s3 -> steps s1 s3.

(** What [Parallel(...)(...)] returns or raises: the results in the order of
    dispatching once all jobs are done, or the exception of any job that has failed. *)
Inductive outcome (s : pstate) : res (list (list nat * list Z)) -> Prop :=
| out_done parts : ps_pending s = [] -> after = None -> ps_stop s = None ->
    Forall2 (fun t p => fst t = fst p /\ snd t = Ret (Ok (snd p))) (ps_tasks s) parts -> outcome s (Ok parts)
| out_failed ids e : In (ids, Ret (Err e)) (ps_tasks s) -> outcome s (Err e)
| out_stopped e : ps_stop s = Some e -> outcome s (Err e).
End Jobs.

(** core.py:61-116 [mapper_labels] with threads: the heap and the result. *)
Inductive par_labels (fitc : nat -> list point -> prog unit) (lim : nat) (X y : point) (cover cl : nat) (h : heap)
  : heap -> res (list (list Z)) -> Prop :=
| par_cover_fails h' e : run (cover_apply classes beh lim cover y) h = (h', Err e) -> par_labels fitc lim X y cover cl h h' (Err e)
| par_runs h1 opens s r :
    run (cover_apply classes beh lim cover y) h = (h1, Ok opens) ->
    steps fitc lim (items X) cl (stops opens) (start h1 (yields opens)) s -> outcome (stops opens) s r ->
    par_labels fitc lim X y cover cl h (ps_heap s)
      (do parts <- r; do rs <- rows X; assign_labels (length rs) parts).

(** [MapperAlgorithm.fit] with [n_jobs > 1]. *)
Inductive par_algorithm_fit (lim m : nat) (X : input) (y : option input) (h : heap) : heap -> res unit -> Prop :=
| pa_prepare_fails h' e : run (ma_prepare is_nan is_inf to_float classes c_tcover c_tclust c_failsafe lim m X y) h = (h', Err e) -> par_algorithm_fit lim m X y h h' (Err e)
| pa_runs h1 X' y' cover cl h2 r :
    run (ma_prepare is_nan is_inf to_float classes c_tcover c_tclust c_failsafe lim m X y) h = (h1, Ok (X', y', cover, cl)) ->
    par_labels (fit_clust is_nan is_inf to_float classes beh c_tcover c_tclust lim) lim X' y' cover cl h1 h2 r ->
    par_algorithm_fit lim m X y h
      (fst (run (prg l <- lift r; prg g <- lift (graph_of_labels l); ma_finish m X' g) h2))
      (snd (run (prg l <- lift r; prg g <- lift (graph_of_labels l); ma_finish m X' g) h2)).
End Parallel.
