(** The estimators: C39, C40. *)
From Coq Require Import String.
From Verif Require Import Base ModelCore SpecCore ModelObjects SpecObjects ModelValidate ModelLearn SpecLearn
  LearnLogic LearnProp LearnHistory LearnResult LearnExample.
Open Scope nat_scope.
Open Scope list_scope.

(** ** C39: MapperAlgorithm.fit *)

(** [fit] stores in [graph_] the graph that [mapper_graph] gives for the validated
    data, the cover and the clustering (wrapped if [failsafe]); if that raises,
    [fit] raises the same exception. *)
Theorem C39_fit_stores_graph : forall (F O : Type) (is_nan is_inf : F -> bool) (to_float : O -> res F) classes beh c_tcover c_tclust c_failsafe,
  classes_ok classes beh c_tcover c_tclust c_failsafe ->
  forall h rank m cov c lim X y,
  heap_ok classes h rank -> made classes h -> mapper_of is_nan is_inf to_float classes beh h m cov c -> rank m + 4 < lim ->
  exists g h' r, run (mapper_algorithm_fit is_nan is_inf to_float classes beh c_tcover c_tclust c_failsafe lim m X y) h = (h', r) /\
    fits_graph is_nan is_inf to_float X y cov c g /\
    match g with Ok x => r = Ok tt /\ attr h' m "graph_" = Some (VGraph x) | Err e => r = Err e end.
Proof.
  intros F O is_nan is_inf to_float classes beh c1 c2 c3 CO h rank m cov c lim X y W M Mp L.
  exists (graph_fun is_nan is_inf to_float X y cov c). eexists. eexists. split; [apply surjective_pairing|].
  split; [apply graph_fun_fits|]. apply (algorithm_result is_nan is_inf to_float classes beh c1 c2 c3 CO lim m X y cov c h rank (conj W M) Mp L).
Qed.
Print Assumptions C39_fit_stores_graph.

(** [fit_transform] returns it. *)
Theorem C39_fit_transform : forall (F O : Type) (is_nan is_inf : F -> bool) (to_float : O -> res F) classes beh c_tcover c_tclust c_failsafe,
  classes_ok classes beh c_tcover c_tclust c_failsafe ->
  forall h rank m cov c lim X y,
  heap_ok classes h rank -> made classes h -> mapper_of is_nan is_inf to_float classes beh h m cov c -> rank m + 4 < lim ->
  exists g, fits_graph is_nan is_inf to_float X (Some y) cov c g /\
    snd (run (mapper_algorithm_fit_transform is_nan is_inf to_float classes beh c_tcover c_tclust c_failsafe lim m X y) h) =
    match g with Ok x => Ok (VGraph x) | Err e => Err e end.
Proof.
  intros F O is_nan is_inf to_float classes beh c1 c2 c3 CO h rank m cov c lim X y W M Mp L.
  exists (graph_fun is_nan is_inf to_float X (Some y) cov c). split; [apply graph_fun_fits|].
  apply (transform_result is_nan is_inf to_float classes beh c1 c2 c3 CO lim m X y cov c h rank (conj W M) Mp L).
Qed.
Print Assumptions C39_fit_transform.

(** Whatever was fitted or cloned before, [fit_transform] gives the same result. *)
Theorem C39_refit : forall (F O : Type) (is_nan is_inf : F -> bool) (to_float : O -> res F) classes beh c_tcover c_tclust c_failsafe,
  classes_ok classes beh c_tcover c_tclust c_failsafe ->
  forall h rank m cov c lim X y h',
  heap_ok classes h rank -> made classes h -> mapper_of is_nan is_inf to_float classes beh h m cov c -> rank m + 4 < lim ->
  history is_nan is_inf to_float classes beh c_tcover c_tclust c_failsafe h h' ->
  snd (run (mapper_algorithm_fit_transform is_nan is_inf to_float classes beh c_tcover c_tclust c_failsafe lim m X y) h') =
  snd (run (mapper_algorithm_fit_transform is_nan is_inf to_float classes beh c_tcover c_tclust c_failsafe lim m X y) h).
Proof.
  intros F O is_nan is_inf to_float classes beh c1 c2 c3 CO h rank m cov c lim X y h' W M Mp L Hi.
  apply (algorithm_refit is_nan is_inf to_float classes beh c1 c2 c3 CO lim m X y cov c h rank h' (conj W M) Mp L Hi).
Qed.
Print Assumptions C39_refit.

(** A fresh clone gives the same result as the estimator it was cloned from. *)
Theorem C39_fresh_clone : forall (F O : Type) (is_nan is_inf : F -> bool) (to_float : O -> res F) classes beh c_tcover c_tclust c_failsafe,
  classes_ok classes beh c_tcover c_tclust c_failsafe ->
  forall h rank m cov c lim X y h2 m2,
  heap_ok classes h rank -> made classes h -> mapper_of is_nan is_inf to_float classes beh h m cov c -> rank m + 4 < lim ->
  run (pclone classes lim (VRef m)) h = (h2, Ok m2) ->
  snd (run (mapper_algorithm_fit_transform is_nan is_inf to_float classes beh c_tcover c_tclust c_failsafe lim m2 X y) h2) =
  snd (run (mapper_algorithm_fit_transform is_nan is_inf to_float classes beh c_tcover c_tclust c_failsafe lim m X y) h).
Proof.
  intros F O is_nan is_inf to_float classes beh c1 c2 c3 CO h rank m cov c lim X y h2 m2 W M Mp L E.
  apply (algorithm_clone is_nan is_inf to_float classes beh c1 c2 c3 CO lim m X y cov c h rank h2 m2 (conj W M) Mp L E).
Qed.
Print Assumptions C39_fresh_clone.

(** No fit, successful or not, of any estimator or clustering in any well formed
    heap, changes a parameter of any object; and the heap stays well formed. *)
Theorem C39_parameters_kept : forall (F O : Type) (is_nan is_inf : F -> bool) (to_float : O -> res F) classes beh c_tcover c_tclust c_failsafe,
  classes_ok classes beh c_tcover c_tclust c_failsafe ->
  forall h rank h', heap_ok classes h rank -> made classes h ->
  history is_nan is_inf to_float classes beh c_tcover c_tclust c_failsafe h h' ->
  kept h h' /\ made classes h' /\ exists rank', heap_ok classes h' rank' /\ forall l, l < length h -> rank' l = rank l.
Proof.
  intros F O is_nan is_inf to_float classes beh c1 c2 c3 CO h rank h' W M Hi.
  destruct (history_fine is_nan is_inf to_float classes beh c1 c2 c3 CO h h' rank (conj W M) Hi) as [rank' [[W' M'] [K S]]].
  split; [exact K|]. split; [exact M'|]. exists rank'. split; [exact W'|exact S].
Qed.
Print Assumptions C39_parameters_kept.

(** Hypotheses met: [mapper_of] for the estimator 2 of the example. For
    the second lens, the clustering raises on the second open set, which is caught. *)
Example C39_example :
  classes_ok eclasses ebeh 2 3 1 /\ heap_ok eclasses eheap erank /\ made eclasses eheap /\
  mapper_of enan einf efloat eclasses ebeh eheap 2 ecov (failsafe_clustering (Some ecl)) /\ erank 2 + 4 < 9 /\
  snd (run (mapper_algorithm_fit_transform enan einf efloat eclasses ebeh 2 3 1 9 2 eX ey) eheap) =
    Ok (VGraph (mkgraph [(0%Z, (2, [0; 1])); (2%Z, (1, [1])); (1%Z, (1, [2])); (3%Z, (2, [2; 3]))]
                        [(0%Z, [2%Z]); (2%Z, [0%Z]); (1%Z, [3%Z]); (3%Z, [1%Z])])) /\
  snd (run (mapper_algorithm_fit_transform enan einf efloat eclasses ebeh 2 3 1 9 2 eX (einput [4] [-2; -1; -3; 9]%Z)) eheap) =
    Ok (VGraph (mkgraph [(0%Z, (2, [0; 1])); (1%Z, (1, [2])); (2%Z, (1, [3]))] [(0%Z, []); (1%Z, []); (2%Z, [])])).
Proof.
  split; [exact eclasses_ok|]. split; [exact eheap_ok|]. split; [exact eheap_made|]. split; [exact emapper|]. split; [simpl; lia|].
  split; vm_compute; reflexivity.
Qed.

(** A history: fitting other estimators, failing on bad data, and refitting. *)
Definition after_fits : heap :=
  fst (run (mapper_algorithm_fit enan einf efloat eclasses ebeh 2 3 1 9 2 (einput [2; 1] [7; 8]%Z) None)
    (fst (run (mapper_clustering_fit enan einf efloat eclasses ebeh 2 3 9 3 eX (Some (einput [1] [4]%Z)))
      (fst (run (mapper_algorithm_fit enan einf efloat eclasses ebeh 2 3 1 9 2 (einput [4] [1]%Z) None) eheap))))).
Example C39_history_example :
  history enan einf efloat eclasses ebeh 2 3 1 eheap after_fits /\
  length after_fits > length eheap /\ attr after_fits 2 "graph_" <> None /\
  snd (run (mapper_algorithm_fit_transform enan einf efloat eclasses ebeh 2 3 1 9 2 eX ey) after_fits) =
  snd (run (mapper_algorithm_fit_transform enan einf efloat eclasses ebeh 2 3 1 9 2 eX ey) eheap).
Proof.
  split; [|split; [vm_compute; lia|split; [vm_compute; discriminate|vm_compute; reflexivity]]].
  unfold after_fits. apply hi_algorithm; [apply hi_mapper_clustering, hi_algorithm; [apply hi_start|]|].
  - eexists. split; reflexivity.
  - eexists. split; vm_compute; reflexivity.
Qed.

(** "A failing fit leaves no trace of the previous one": false. [graph_] still
    holds the graph of the previous data. *)
Theorem C39_stale_graph_refuted :
  exists m X e h r g, run (mapper_algorithm_fit enan einf efloat eclasses ebeh 2 3 1 9 m X None) after_fits = (h, r) /\
    r = Err e /\ attr h m "graph_" = Some (VGraph g).
Proof. exists 2, (einput [2] [1; 2]%Z). eexists. eexists. eexists. eexists. split; [vm_compute; reflexivity|]. split; reflexivity. Qed.
Print Assumptions C39_stale_graph_refuted.

(** ** C40: MapperClustering.fit *)

(** It succeeds exactly when [mapper_connected_components] does on the validated
    data, and then [labels_] is its result. *)
Theorem C40_fit_stores_components : forall (F O : Type) (is_nan is_inf : F -> bool) (to_float : O -> res F) classes beh c_tcover c_tclust c_failsafe,
  classes_ok classes beh c_tcover c_tclust c_failsafe ->
  forall h rank m cov c lim X y,
  heap_ok classes h rank -> made classes h -> mapper_clustering_of is_nan is_inf to_float classes beh h m cov c -> rank m + 4 < lim ->
  exists l h' r, run (mapper_clustering_fit is_nan is_inf to_float classes beh c_tcover c_tclust lim m X y) h = (h', r) /\
    fits_labels is_nan is_inf to_float X y cov c l /\
    match l with Ok x => r = Ok tt /\ attr h' m "labels_" = Some (VLabels x) | Err e => r = Err e end.
Proof.
  intros F O is_nan is_inf to_float classes beh c1 c2 c3 CO h rank m cov c lim X y W M Mp L.
  exists (labels_fun is_nan is_inf to_float X y cov c). eexists. eexists. split; [apply surjective_pairing|].
  split; [apply labels_fun_fits|]. apply (clustering_result is_nan is_inf to_float classes beh c1 c2 c3 CO lim m X y cov c h rank (conj W M) Mp L).
Qed.
Print Assumptions C40_fit_stores_components.

(** The labels: one per row; -1 for points in no node of the Mapper graph; equal
    exactly for points in the same connected component. *)
Theorem C40_labels_are_components : forall (F O : Type) (is_nan is_inf : F -> bool) (to_float : O -> res F) classes beh c_tcover c_tclust c_failsafe,
  classes_ok classes beh c_tcover c_tclust c_failsafe ->
  forall h rank m cov c lim X y h',
  heap_ok classes h rank -> made classes h -> mapper_clustering_of is_nan is_inf to_float classes beh h m cov c -> rank m + 4 < lim ->
  run (mapper_clustering_fit is_nan is_inf to_float classes beh c_tcover c_tclust lim m X y) h = (h', Ok tt) ->
  exists X' y' rs g lbls, validate is_nan is_inf to_float X (match y with None => X | Some y' => y' end) = Ok (X', y') /\ rows X' = Ok rs /\
    mapper_graph rs (cov y') (fun _ => c) = Ok g /\
    attr h' m "labels_" = Some (VLabels lbls) /\
    length lbls = length rs /\
    forall i l, nth_error lbls i = Some l ->
      (l = (-1)%Z <-> ~ exists z n ids, node_attr g z n ids /\ In i ids) /\
      forall z n ids, node_attr g z n ids -> In i ids ->
        has_node g l /\ connected g z l /\
        forall j l' z' n' ids', nth_error lbls j = Some l' -> node_attr g z' n' ids' -> In j ids' ->
          (l = l' <-> connected g z z').
Proof.
  intros F O is_nan is_inf to_float classes beh c1 c2 c3 CO h rank m cov c lim X y h' W M Mp L E.
  destruct (clustering_labels is_nan is_inf to_float classes beh c1 c2 c3 CO lim m X y cov c h rank (conj W M) Mp L) as [X' [y' [rs [g [lbls H]]]]];
    [rewrite E; reflexivity|]. rewrite E in H. exists X', y', rs, g, lbls. exact H.
Qed.
Print Assumptions C40_labels_are_components.

(** Whatever was fitted before. *)
Theorem C40_refit : forall (F O : Type) (is_nan is_inf : F -> bool) (to_float : O -> res F) classes beh c_tcover c_tclust c_failsafe,
  classes_ok classes beh c_tcover c_tclust c_failsafe ->
  forall h rank m cov c lim X y h',
  heap_ok classes h rank -> made classes h -> mapper_clustering_of is_nan is_inf to_float classes beh h m cov c -> rank m + 4 < lim ->
  history is_nan is_inf to_float classes beh c_tcover c_tclust c_failsafe h h' ->
  let fit := mapper_clustering_fit is_nan is_inf to_float classes beh c_tcover c_tclust lim m X y in
  snd (run fit h') = snd (run fit h) /\
  (snd (run fit h) = Ok tt -> attr (fst (run fit h')) m "labels_" = attr (fst (run fit h)) m "labels_").
Proof.
  intros F O is_nan is_inf to_float classes beh c1 c2 c3 CO h rank m cov c lim X y h' W M Mp L Hi.
  apply (clustering_refit is_nan is_inf to_float classes beh c1 c2 c3 CO lim m X y cov c h rank h' (conj W M) Mp L Hi).
Qed.
Print Assumptions C40_refit.

Example C40_example :
  classes_ok eclasses ebeh 2 3 1 /\ heap_ok eclasses eheap erank /\ made eclasses eheap /\
  mapper_clustering_of enan einf efloat eclasses ebeh eheap 3 ecov ecl /\ erank 3 + 4 < 9 /\
  (exists h', run (mapper_clustering_fit enan einf efloat eclasses ebeh 2 3 9 3 eX (Some (einput [4] [-2; 2; 3; 7]%Z))) eheap = (h', Ok tt) /\
     attr h' 3 "labels_" = Some (VLabels [0; 0; 1; 1]%Z)).
Proof.
  split; [exact eclasses_ok|]. split; [exact eheap_ok|]. split; [exact eheap_made|]. split; [exact emapper_clustering|]. split; [simpl; lia|].
  eexists. split; [vm_compute; reflexivity|]. vm_compute. reflexivity.
Qed.
