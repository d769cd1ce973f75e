(** Several threads: C10. *)
From Coq Require Import String.
From Verif Require Import Base BaseFacts ModelCore SpecCore ModelObjects SpecObjects ModelValidate ModelLearn SpecLearn
  LearnLogic LearnProp LearnFit LearnHistory LearnResult ModelParallel SpecParallel ParallelProp LearnExample.
Open Scope nat_scope.
Open Scope list_scope.

(** ** C10: n_jobs and scheduling *)

(** The jobs of [mapper_labels]: whatever the schedule, the labels of all open sets
    are those of the sequential run, in order; an exception is that of some job, and
    occurs only if the sequential run raises one too. No parameter is changed. The
    clustering must not share an object among its clones. *)
Theorem C10_every_schedule : forall (F O : Type) (is_nan is_inf : F -> bool) (to_float : O -> res F) classes beh c_tcover c_tclust c_failsafe,
  classes_ok classes beh c_tcover c_tclust c_failsafe ->
  forall h rank cl c lim X after opens s r,
  heap_ok classes h rank -> made classes h -> cloneable classes h cl -> clust_of is_nan is_inf to_float classes beh h cl c ->
  (forall l, ~ shares beh h cl l) -> rank cl + 4 < lim ->
  steps classes (fit_clust is_nan is_inf to_float classes beh c_tcover c_tclust lim) lim X cl after (start h opens) s -> outcome after s r ->
  (forall parts, r = Ok parts <-> run_jobs X (fun _ => c) 0 opens after = Ok parts) /\
  (forall e, r = Err e -> may_raise X c opens after e) /\
  kept h (ps_heap s).
Proof.
  intros F O is_nan is_inf to_float classes beh c1 c2 c3 CO h rank cl c lim X after opens s r W M Cl C Sh L St Ho.
  assert (L0 : 0 < lim) by lia. assert (L1 : rank cl < lim - 3) by lia. assert (L2 : rank cl + 1 < lim) by lia.
  exact (every_schedule is_nan is_inf to_float classes beh c1 c2 c3 CO _ (lim - 3)
    (fit_clust_works is_nan is_inf to_float classes beh c1 c2 c3 CO lim L0) lim X cl after c h rank (conj W M) Cl C Sh (or_introl L1) L2
    opens s r St Ho).
Qed.
Print Assumptions C10_every_schedule.

(** Every schedule ends: from any state on, no infinite run, and some way to a result. *)
Theorem C10_no_infinite_run : forall (F O : Type) classes (fitc : nat -> list (ndarray F O) -> prog unit) lim X cl after s,
  Acc (fun s' s => step classes fitc lim X cl after s s') s.
Proof. intros. apply no_infinite_run. Qed.
Print Assumptions C10_no_infinite_run.
Theorem C10_not_stuck : forall (F O : Type) classes (fitc : nat -> list (ndarray F O) -> prog unit) lim X cl after s,
  (exists s', step classes fitc lim X cl after s s') \/ exists r, outcome after s r.
Proof. intros. apply progress. Qed.
Print Assumptions C10_not_stuck.

(** [mapper_labels] with threads gives what it gives without. *)
Theorem C10_mapper_labels : forall (F O : Type) (is_nan is_inf : F -> bool) (to_float : O -> res F) classes beh c_tcover c_tclust c_failsafe,
  classes_ok classes beh c_tcover c_tclust c_failsafe ->
  forall h rank cover cov cl c lim X y rs h' r,
  heap_ok classes h rank -> made classes h -> cover_of classes beh h (VRef cover) cov -> rank cover < lim ->
  cloneable classes h cl -> clust_of is_nan is_inf to_float classes beh h cl c -> (forall l, ~ shares beh h cl l) -> rank cl + 4 < lim ->
  rows X = Ok rs ->
  par_labels classes beh (fit_clust is_nan is_inf to_float classes beh c_tcover c_tclust lim) lim X y cover cl h h' r ->
  forall lbls, r = Ok lbls <-> mapper_labels rs (cov y) (fun _ => c) = Ok lbls.
Proof.
  intros F O is_nan is_inf to_float classes beh c1 c2 c3 CO h rank cover cov cl c lim X y rs h' r W M Cv Lv Cl C Sh L R P lbls.
  assert (L0 : 0 < lim) by lia. assert (L1 : rank cl < lim - 3) by lia. assert (L2 : rank cl + 1 < lim) by lia.
  rewrite <- (pure_labels_rows _ _ _ _ _ R).
  apply (par_labels_ok is_nan is_inf to_float classes beh c1 c2 c3 CO _ (lim - 3)
    (fit_clust_works is_nan is_inf to_float classes beh c1 c2 c3 CO lim L0) lim X y cover cov cl c h rank h' r (conj W M) Cv Lv Cl C Sh
    (or_introl L1) L2 P).
Qed.
Print Assumptions C10_mapper_labels.

(** Without threads, sharing does no harm. *)
Theorem C10_one_job : forall (F O : Type) (is_nan is_inf : F -> bool) (to_float : O -> res F) classes beh c_tcover c_tclust c_failsafe,
  classes_ok classes beh c_tcover c_tclust c_failsafe ->
  forall h rank cl c lim X after opens,
  heap_ok classes h rank -> made classes h -> cloneable classes h cl -> clust_of is_nan is_inf to_float classes beh h cl c -> rank cl + 4 < lim ->
  snd (run (jobs_seq classes (fit_clust is_nan is_inf to_float classes beh c_tcover c_tclust lim) lim X cl opens after) h) =
  run_jobs X (fun _ => c) 0 opens after.
Proof.
  intros F O is_nan is_inf to_float classes beh c1 c2 c3 CO h rank cl c lim X after opens W M Cl C L.
  assert (L0 : 0 < lim) by lia. assert (L1 : rank cl < lim - 3) by lia. assert (L2 : rank cl + 1 < lim) by lia.
  destruct (ok_run classes _ (fun _ => True) h rank _ (conj W M)
    (jobs_seq_ok is_nan is_inf to_float classes beh c1 c2 c3 CO _ (lim - 3)
      (fit_clust_works is_nan is_inf to_float classes beh c1 c2 c3 CO lim L0) lim X cl c opens after 0 (fun _ => True) h rank (conj W M) Cl C
      (fun _ _ => I) (or_introl L1) L2)) as [own' [rank' [Q _]]]. exact Q.
Qed.
Print Assumptions C10_one_job.

(** MapperAlgorithm with [failsafe] off and a clustering whose clones share nothing:
    with threads, [fit] stores the graph it stores without. *)
Theorem C10_algorithm_without_failsafe : forall (F O : Type) (is_nan is_inf : F -> bool) (to_float : O -> res F) classes beh
    c_tcover c_tclust c_failsafe,
  classes_ok classes beh c_tcover c_tclust c_failsafe ->
  forall h rank m cov c fs lim X y h' r,
  heap_ok classes h rank -> made classes h -> mapper_of is_nan is_inf to_float classes beh h m cov c -> rank m + 4 < lim ->
  attr h m "failsafe" = Some fs -> truthy fs = false -> (forall q l, attr h m "clustering" = Some (VRef q) -> ~ shares beh h q l) ->
  par_algorithm_fit is_nan is_inf to_float classes beh c_tcover c_tclust c_failsafe lim m X y h h' r ->
  exists g, fits_graph is_nan is_inf to_float X y cov c g /\
    match g with Ok x => r = Ok tt /\ attr h' m "graph_" = Some (VGraph x) | Err _ => exists e, r = Err e end.
Proof.
  intros F O is_nan is_inf to_float classes beh c1 c2 c3 CO h rank m cov c fs lim X y h' r W M Mp L Af Tf Sh P.
  exists (graph_fun is_nan is_inf to_float X y cov c). split; [apply graph_fun_fits|].
  apply (par_algorithm_ok is_nan is_inf to_float classes beh c1 c2 c3 CO lim m X y cov c fs h rank h' r (conj W M) Mp L Af Tf Sh P).
Qed.
Print Assumptions C10_algorithm_without_failsafe.

(** Which clusterings share nothing: all but FailSafeClustering around an object,
    and MapperClustering around such. *)
Theorem C10_who_shares : forall (F O : Type) (beh : nat -> behaviour F O) h r,
  (exists l, shares beh h r l) <->
  (exists r', behaves beh h r IsFailSafe /\ attr h r "clustering" = Some (VRef r')) \/
  (exists r', behaves beh h r IsMapperClustering /\ attr h r "clustering" = Some (VRef r') /\ exists l, shares beh h r' l).
Proof.
  intros F O beh h r. split.
  - intros [l S]. inversion S as [a r' B A|a r' l' B A S']; subst; [eauto|]. destruct B; [eauto|right]. exists r'. eauto.
  - intros [[r' [B A]]|[r' [B [A [l S]]]]]; [exists r'; constructor; assumption|]. exists l. eapply sh_below; eauto.
Qed.
Print Assumptions C10_who_shares.

(** *** Schedules by hand *)
Inductive choice : Type := Dispatch | Work (j : nat).
Section Exec.
Context {F O : Type}.
Variable classes : nat -> class.
Variable fitc : nat -> list (ndarray F O) -> prog unit.
Variables (lim : nat) (X : list (ndarray F O)) (cl : nat) (after : option exn).
Definition exec1 (c : choice) (s : pstate) : option pstate :=
  match c with
  | Dispatch =>
      match ps_pending s, ps_stop s with
      | ids :: pending, None =>
          match map_res (rd X) ids with
          | Ok xs => match run (pclone classes lim (VRef cl)) (ps_heap s) with
                     | (h', Ok c) => Some (mkps h' pending (ps_tasks s ++ [(ids, job fitc c xs)]) None)
                     | _ => None
                     end
          | Err _ => None
          end
      | _, _ => None
      end
  | Work j =>
      match nth_error (ps_tasks s) j with
      | Some (ids, Act upd next) =>
          Some (mkps (upd (ps_heap s)) (ps_pending s) (firstn j (ps_tasks s) ++ (ids, next (ps_heap s)) :: skipn (S j) (ps_tasks s)) (ps_stop s))
      | _ => None
      end
  end.
Fixpoint exec (cs : list choice) (s : pstate) : option pstate :=
  match cs with
  | [] => Some s
  | c :: cs' => match exec1 c s with Some s' => exec cs' s' | None => None end
  end.
Lemma exec1_step c s s' : exec1 c s = Some s' -> step classes fitc lim X cl after s s'.
Proof.
  destruct s as [h pending tasks st]. destruct c as [|j]; simpl.
  - destruct pending as [|ids pending]; [discriminate|]. destruct st; [discriminate|]. destruct (map_res (rd X) ids) eqn:Ex; [|discriminate].
    destruct (clone classes lim h cl) as [q|q] eqn:E; [|discriminate]. cbn [bind]. intros [= <-].
    apply st_dispatch; [exact Ex|]. unfold pclone. cbn [as_ref lift pbind run]. rewrite E. reflexivity.
  - destruct (nth_error tasks j) as [[ids [r|upd next]]|] eqn:N; [discriminate| |discriminate]. intros [= <-].
    assert (E : tasks = firstn j tasks ++ (ids, Act upd next) :: skipn (S j) tasks).
    { clear -N. revert tasks N. induction j as [|j IH]; intros [|t tasks] N; simpl in *; try discriminate; [congruence|]. f_equal. apply IH, N. }
    rewrite E at 1. apply st_job.
Qed.
Lemma exec_steps cs : forall s s', exec cs s = Some s' -> steps classes fitc lim X cl after s s'.
Proof.
  assert (T : forall s1 s2 s3, steps classes fitc lim X cl after s2 s3 -> step classes fitc lim X cl after s1 s2 ->
    steps classes fitc lim X cl after s1 s3).
  { intros s1 s2 s3 A B. induction A as [s|a b d A IH D]; [eapply ss_step; [apply ss_refl|exact B]|]. eapply ss_step; [apply IH, B|exact D]. }
  induction cs as [|c cs IH]; intros s s' H; simpl in H; [injection H as <-; apply ss_refl|].
  destruct (exec1 c s) as [s1|] eqn:E; [|discriminate]. eapply T; [apply IH, H|eapply exec1_step, E].
Qed.
End Exec.

Notation efit := (fit_clust enan einf efloat eclasses ebeh 2 3 9).
Definition epoints : list epoint := map (fun z => mkarr [1] (ENum [z])) [1; 4; 6; 9]%Z.

(** Hypotheses met: the clustering 1 of the example, two jobs taking turns. *)
Example C10_example :
  classes_ok eclasses ebeh 2 3 1 /\ heap_ok eclasses eheap erank /\ made eclasses eheap /\
  cloneable eclasses eheap 1 /\ clust_of enan einf efloat eclasses ebeh eheap 1 ecl /\ (forall l, ~ shares ebeh eheap 1 l) /\ erank 1 + 4 < 9 /\
  exists s, steps eclasses efit 9 epoints 1 None (start eheap [[0; 1; 2; 3]; [2; 3]]) s /\
    outcome None s (Ok [([0; 1; 2; 3], [0; 0; 1; 1]%Z); ([2; 3], [1; 1]%Z)]).
Proof.
  split; [exact eclasses_ok|]. split; [exact eheap_ok|]. split; [exact eheap_made|]. split; [destruct eclusterings as [A _]; inversion A; assumption|].
  split; [exact eclust_of|]. split; [|split; [simpl; lia|]].
  - intros l S. inversion S as [? ? [o [N E]] A|? ? ? [[o [N E]]|[o [N E]]] A]; injection N as <-; discriminate E.
  - eexists. split; [apply (exec_steps _ _ _ _ _ _ [Dispatch; Work 0; Dispatch; Work 1; Work 0; Work 1; Work 1; Work 0; Work 0; Work 1]);
      vm_compute; reflexivity|].
    apply out_done; [reflexivity|reflexivity|reflexivity|]. repeat constructor.
Qed.

(** "MapperAlgorithm gives the same graph whatever the schedule": false for the
    default [failsafe=True]. The two jobs fit the same object, and the first one reads
    the labels of the second. The last two points are then in no node, although the
    first open set contains them and its clustering gives them a label. *)
Definition ey3 : input Z Empty_set := einput [4] [2; 3; -2; -1]%Z.
Definition bad_schedule : list choice := [Dispatch; Dispatch] ++ repeat (Work 0) 10 ++ repeat (Work 1) 13 ++ repeat (Work 0) 3.
Definition finished (ts : list (list nat * prog (list Z))) : option (list (list nat * list Z)) :=
  fold_right (fun t acc => match snd t, acc with Ret (Ok l), Some ps => Some ((fst t, l) :: ps) | _, _ => None end) (Some []) ts.
Lemma finished_ok ts : forall ps, finished ts = Some ps -> Forall2 (fun t p => fst t = fst p /\ snd t = Ret (Ok (snd p))) ts ps.
Proof.
  induction ts as [|[ids [[l|e]|u n]] ts IH]; simpl; intros ps H; [injection H as <-; constructor| |discriminate|discriminate].
  destruct (finished ts) as [q|]; [|discriminate]. injection H as <-. constructor; [auto|apply IH; reflexivity].
Qed.
Definition exec_fit (cs : list choice) (m : nat) (X y : input Z Empty_set) (h : heap) : option (heap * res unit) :=
  match run (ma_prepare enan einf efloat eclasses 2 3 1 9 m X (Some y)) h with
  | (h1, Ok (X', y', cover, cl)) =>
      match run (cover_apply eclasses ebeh 9 cover y') h1 with
      | (h2, Ok (mkgen opens None)) =>
          match exec eclasses efit 9 (items X') cl cs (start h2 opens) with
          | Some (mkps h3 [] ts None) =>
              match finished ts with
              | Some parts => Some (run (prg l <- lift (do rs <- rows X'; assign_labels (length rs) parts);
                                         prg g <- lift (graph_of_labels l); ma_finish m X' g) h3)
              | None => None
              end
          | _ => None
          end
      | _ => None
      end
  | _ => None
  end.
Lemma exec_fit_ok cs m X y h h' r : exec_fit cs m X y h = Some (h', r) ->
  par_algorithm_fit enan einf efloat eclasses ebeh 2 3 1 9 m X (Some y) h h' r.
Proof.
  unfold exec_fit. destruct (run (ma_prepare enan einf efloat eclasses 2 3 1 9 m X (Some y)) h) as [h1 [[[[X' y'] cover] cl]|e]] eqn:E1; [|discriminate].
  destruct (run (cover_apply eclasses ebeh 9 cover y') h1) as [h2 [[opens [e|]]|e]] eqn:E2; try discriminate.
  destruct (exec eclasses efit 9 (items X') cl cs (start h2 opens)) as [[h3 [|? ?] ts [e|]]|] eqn:E3; try discriminate.
  destruct (finished ts) as [parts|] eqn:E4; [|discriminate].
  match goal with |- Some ?z = _ -> _ => intro H; assert (H' : z = (h', r)) by (injection H; auto); clear H end.
  assert (P : par_labels eclasses ebeh efit 9 X' y' cover cl h1 h3 (do rs <- rows X'; assign_labels (length rs) parts)).
  { apply (par_runs eclasses ebeh efit 9 X' y' cover cl h1 h2 (mkgen opens None) (mkps h3 [] ts None) (Ok parts)); [exact E2| |].
    - apply (exec_steps _ _ _ _ _ _ cs). exact E3.
    - apply out_done; [reflexivity|reflexivity|reflexivity|apply finished_ok, E4]. }
  pose proof (pa_runs enan einf efloat eclasses ebeh 2 3 1 9 m X (Some y) h h1 X' y' cover cl h3 _ E1 P) as Q.
  rewrite H' in Q. exact Q.
Qed.

Theorem C10_failsafe_refuted :
  exists h' g g', par_algorithm_fit enan einf efloat eclasses ebeh 2 3 1 9 2 eX (Some ey3) eheap h' (Ok tt) /\
    attr h' 2 "graph_" = Some (VGraph g') /\
    snd (run (mapper_algorithm_fit_transform enan einf efloat eclasses ebeh 2 3 1 9 2 eX ey3) eheap) = Ok (VGraph g) /\
    (exists z n ids, node_attr g z n ids /\ In 3 ids) /\ ~ exists z n ids, node_attr g' z n ids /\ In 3 ids.
Proof.
  eexists. eexists. eexists. split; [|split; [|split; [|split]]].
  - apply (exec_fit_ok bad_schedule). vm_compute. reflexivity.
  - reflexivity.
  - vm_compute. reflexivity.
  - exists 1%Z, 2, [2; 3]. split; [vm_compute; tauto|simpl; tauto].
  - intros [z [n [ids [H I]]]]. unfold node_attr in H. simpl in H. repeat (destruct H as [H|H]; [injection H as <- <- <-; simpl in I; intuition discriminate|]). destruct H.
Qed.
Print Assumptions C10_failsafe_refuted.
