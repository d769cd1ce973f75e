(** What the estimators' [fit] computes. *)
From Coq Require Import String.
From Verif Require Import Base BaseFacts Dict DictFacts ModelUnionFind ModelCore SpecCore CoreProp ModelObjects SpecObjects ObjectFacts
  ObjectProp ModelValidate SpecValidate ValidateProp ModelLearn SpecLearn LearnLogic LearnFacts LearnStable LearnProp LearnFit LearnHistory.
Open Scope nat_scope.
Open Scope list_scope.

Section Result.
Context {F O : Type}.
Variable is_nan : F -> bool.
Variable is_inf : F -> bool.
Variable to_float : O -> res F.
Notation point := (ndarray F O).
Variable classes : nat -> class.
Variable beh : nat -> behaviour F O.
Variables c_tcover c_tclust c_failsafe : nat.
Hypothesis CO : classes_ok classes beh c_tcover c_tclust c_failsafe.
Notation inv := (inv classes).
Notation behaves := (behaves beh).
Notation mapper_of := (mapper_of is_nan is_inf to_float classes beh).
Notation mapper_clustering_of := (mapper_clustering_of is_nan is_inf to_float classes beh).
Notation fits_graph := (fits_graph is_nan is_inf to_float).
Notation fits_labels := (fits_labels is_nan is_inf to_float).
Notation algorithm_fit := (mapper_algorithm_fit is_nan is_inf to_float classes beh c_tcover c_tclust c_failsafe).
Notation algorithm_fit_transform := (mapper_algorithm_fit_transform is_nan is_inf to_float classes beh c_tcover c_tclust c_failsafe).
Notation clustering_fit := (mapper_clustering_fit is_nan is_inf to_float classes beh c_tcover c_tclust).
Notation history := (history is_nan is_inf to_float classes beh c_tcover c_tclust c_failsafe).

Definition graph_fun X y cov c : res graph :=
  do v <- validate is_nan is_inf to_float X (arg_y X y); pure_graph (fst v) (snd v) cov c.
Definition labels_fun X y cov c : res (list Z) :=
  do v <- validate is_nan is_inf to_float X (arg_y X y); pure_components (fst v) (snd v) cov c.

Lemma graph_fun_fits X y cov c : fits_graph X y cov c (graph_fun X y cov c).
Proof.
  unfold SpecLearn.fits_graph, graph_fun. fold (arg_y X y). destruct (validate is_nan is_inf to_float X (arg_y X y)) as [[X' y']|e]; [|reflexivity].
  cbn [bind fst snd]. unfold pure_graph. destruct (rows X') as [rs|e] eqn:R; [rewrite (pure_labels_rows _ _ _ _ _ R); reflexivity|].
  unfold pure_labels. rewrite R. destruct (run_jobs (items X') (fun _ => c) 0 (yields (cov y')) (stops (cov y'))); simpl; eauto.
Qed.
Lemma labels_fun_fits X y cov c : fits_labels X y cov c (labels_fun X y cov c).
Proof.
  unfold SpecLearn.fits_labels, labels_fun. fold (arg_y X y). destruct (validate is_nan is_inf to_float X (arg_y X y)) as [[X' y']|e]; [|reflexivity].
  cbn [bind fst snd]. unfold pure_components. destruct (rows X') as [rs|e] eqn:R; [rewrite (pure_labels_rows _ _ _ _ _ R); reflexivity|].
  unfold pure_labels. rewrite R. destruct (run_jobs (items X') (fun _ => c) 0 (yields (cov y')) (stops (cov y'))); simpl; eauto.
Qed.

Lemma algorithm_result lim m X y cov c h rank : inv h rank -> mapper_of h m cov c -> rank m + 4 < lim ->
  let r := run (algorithm_fit lim m X y) h in
  match graph_fun X y cov c with
  | Ok g => snd r = Ok tt /\ attr (fst r) m "graph_" = Some (VGraph g)
  | Err e => snd r = Err e
  end.
Proof.
  intros I [B [vc [vk [fs [vb [nj [c0 [A1 [Cv [A2 [Ck [A3 [A4 [A5 ->]]]]]]]]]]]]]] Hl r.
  assert (H : ok classes (algorithm_fit lim m X y) (fun _ => True) h rank
    (ma_post m (graph_fun X y cov (if truthy fs then failsafe_clustering (Some c0) else c0)))).
  { unfold mapper_algorithm_fit, graph_fun.
    apply (ma_fit_ok is_nan is_inf to_float classes beh c_tcover c_tclust c_failsafe CO _ (lim - 3)
      (fit_clust_works is_nan is_inf to_float classes beh c_tcover c_tclust c_failsafe CO lim ltac:(lia))
      lim m X y vc cov vk c0 fs vb nj); auto; lia. }
  destruct (ok_run _ _ _ _ _ _ I H) as [own' [rank' [Q _]]]. exact Q.
Qed.

Lemma transform_result lim m X y cov c h rank : inv h rank -> mapper_of h m cov c -> rank m + 4 < lim ->
  snd (run (algorithm_fit_transform lim m X y) h) = do g <- graph_fun X (Some y) cov c; Ok (VGraph g).
Proof.
  intros I M Hl. unfold mapper_algorithm_fit_transform. rewrite run_bind.
  pose proof (algorithm_result lim m X (Some y) cov c h rank I M Hl) as R. cbv zeta in R.
  destruct (graph_fun X (Some y) cov c) as [g|e].
  - destruct R as [-> A]. cbn [get look run snd bind]. unfold attr in A.
    destruct (nth_error _ m) as [o|] eqn:N; [|discriminate]. rewrite (proj2 (rd_ok _ _ _) N). cbn [bind]. rewrite A. reflexivity.
  - rewrite R. reflexivity.
Qed.

Lemma clustering_result lim m X y cov c h rank : inv h rank -> mapper_clustering_of h m cov c -> rank m + 4 < lim ->
  let r := run (clustering_fit lim m X y) h in
  match labels_fun X y cov c with
  | Ok l => snd r = Ok tt /\ attr (fst r) m "labels_" = Some (VLabels l)
  | Err e => snd r = Err e
  end.
Proof.
  intros I [B [vc [vk [nj [A1 [Cv [A2 [Ck A3]]]]]]]] Hl r.
  assert (H : ok classes (clustering_fit lim m X y) (fun _ => True) h rank (mc_post m (labels_fun X y cov c))).
  { unfold mapper_clustering_fit, labels_fun.
    apply (mc_fit_ok is_nan is_inf to_float classes beh c_tcover c_tclust c_failsafe CO _ (lim - 3)
      (fit_clust_works is_nan is_inf to_float classes beh c_tcover c_tclust c_failsafe CO lim ltac:(lia))
      lim m X y vc cov vk c nj); auto; lia. }
  destruct (ok_run _ _ _ _ _ _ I H) as [own' [rank' [Q _]]]. exact Q.
Qed.

Lemma invalid_input_algorithm lim m X y h e : validate is_nan is_inf to_float X (arg_y X y) = Err e ->
  run (algorithm_fit lim m X y) h = (h, Err e).
Proof. intro E. unfold mapper_algorithm_fit, ma_fit, ma_prepare. fold (arg_y X y). rewrite E. reflexivity. Qed.
Lemma invalid_input_clustering lim m X y h e : validate is_nan is_inf to_float X (arg_y X y) = Err e ->
  run (clustering_fit lim m X y) h = (h, Err e).
Proof. intro E. unfold mapper_clustering_fit, mc_fit. fold (arg_y X y). rewrite E. reflexivity. Qed.

(** *** Histories *)
Lemma history_fine h h' rank : inv h rank -> history h h' -> fine classes h h' rank.
Proof.
  intros I H.
  assert (T : forall A (P : heap -> Prop) (p : prog A) h1 h2 Q, tri classes P p Q -> P h1 -> fine classes h h1 rank -> h2 = fst (run p h1) -> fine classes h h2 rank).
  { intros A P p h1 h2 Q Tr HP [r1 [I1 [K1 S1]]] ->. destruct (Tr h1 r1 I1 HP) as [[r2 [I2 [K2 S2]]] _].
    exists r2. split; [exact I2|]. split; [eapply kept_trans; eassumption|].
    intros l L. rewrite S2 by (pose proof (kept_length _ _ K1); lia). apply S1, L. }
  induction H.
  - apply fine_refl, I.
  - apply (T _ _ _ _ _ _ (tri_ma_fit is_nan is_inf to_float classes beh _ _ _ CO _
      (safe_fit_clust is_nan is_inf to_float classes beh _ _ _ CO lim) lim m X y) H0 IHhistory eq_refl).
  - apply (T _ _ _ _ _ _ (safe_mc_fit is_nan is_inf to_float classes beh _ _ _ CO _
      (safe_fit_clust is_nan is_inf to_float classes beh _ _ _ CO lim) lim m X y) Logic.I IHhistory eq_refl).
  - apply (T _ _ _ _ _ _ (safe_fit_clust is_nan is_inf to_float classes beh _ _ _ CO lim r xs) Logic.I IHhistory eq_refl).
  - apply (T _ _ _ _ _ _ (safe_clone classes lim v) Logic.I IHhistory eq_refl).
Qed.

Lemma mapper_of_kept h rank h' rank' m cov c : inv h rank -> inv h' rank' -> kept h h' -> mapper_of h m cov c -> mapper_of h' m cov c.
Proof.
  intros I I' K [B [vc [vk [fs [vb [nj [c0 [A1 [Cv [A2 [Ck [A3 [A4 [A5 E]]]]]]]]]]]]]].
  split; [eapply kept_behaves; eassumption|]. exists vc, vk, fs, vb, nj, c0.
  split; [eapply kept_attr_some; [exact K|pname|exact A1]|].
  split; [apply (cover_of_kept classes beh h rank h' rank'); assumption|].
  split; [eapply kept_attr_some; [exact K|pname|exact A2]|].
  split; [apply (clustering_of_kept is_nan is_inf to_float classes beh h rank h' rank'); assumption|].
  split; [eapply kept_attr_some; [exact K|pname|exact A3]|].
  split; [eapply kept_attr_some; [exact K|pname|exact A4]|].
  split; [eapply kept_attr_some; [exact K|pname|exact A5]|exact E].
Qed.
Lemma mapper_clustering_of_kept h rank h' rank' m cov c : inv h rank -> inv h' rank' -> kept h h' -> mapper_clustering_of h m cov c -> mapper_clustering_of h' m cov c.
Proof.
  intros I I' K [B [vc [vk [nj [A1 [Cv [A2 [Ck A3]]]]]]]].
  split; [eapply kept_behaves; eassumption|]. exists vc, vk, nj.
  split; [eapply kept_attr_some; [exact K|pname|exact A1]|].
  split; [apply (cover_of_kept classes beh h rank h' rank'); assumption|].
  split; [eapply kept_attr_some; [exact K|pname|exact A2]|].
  split; [apply (clustering_of_kept is_nan is_inf to_float classes beh h rank h' rank'); assumption|].
  eapply kept_attr_some; [exact K|pname|exact A3].
Qed.

Lemma behaves_len h m b : behaves h m b -> m < length h.
Proof. apply behaves_lt. Qed.

Theorem algorithm_refit lim m X y cov c h rank h' : inv h rank -> mapper_of h m cov c -> rank m + 4 < lim -> history h h' ->
  snd (run (algorithm_fit_transform lim m X y) h') = snd (run (algorithm_fit_transform lim m X y) h).
Proof.
  intros I M Hl Hi. destruct (history_fine h h' rank I Hi) as [rank' [I' [K S]]].
  rewrite (transform_result lim m X y cov c h rank I M Hl).
  apply (transform_result lim m X y cov c h' rank' I').
  - apply (mapper_of_kept h rank h' rank'); assumption.
  - rewrite S; [exact Hl|]. destruct M as [B _]. eapply behaves_len, B.
Qed.

Lemma mapper_of_copy h rank h2 rank2 m cp cov c : inv h rank -> inv h2 rank2 -> kept h h2 -> copy classes h m h2 cp ->
  mapper_of h m cov c -> mapper_of h2 cp cov c.
Proof.
  intros I I2 K Cp M. pose proof M as [B _]. apply (mapper_of_kept h rank h2 rank2 m cov c I I2 K) in M.
  destruct M as [B2 [vc [vk [fs [vb [nj [c0 [A1 [Cv [A2 [Ck [A3 [A4 [A5 E]]]]]]]]]]]]]].
  split; [eapply copy_behaves; eassumption|]. exists vc, vk, fs, vb, nj, c0.
  assert (CA : forall k v, param_name k -> attr h2 m k = Some v -> attr h2 cp k = Some v).
  { intros k v Pk A. erewrite (copy_attr classes beh c_tcover c_tclust c_failsafe CO) by eauto.
    rewrite <- (kept_attr h h2 m k K); [exact A|eapply behaves_len, B|exact Pk]. }
  repeat split; try assumption; apply CA; try assumption; pname.
Qed.

Theorem algorithm_clone lim m X y cov c h rank h2 cp : inv h rank -> mapper_of h m cov c -> rank m + 4 < lim ->
  run (pclone classes lim (VRef m)) h = (h2, Ok cp) ->
  snd (run (algorithm_fit_transform lim cp X y) h2) = snd (run (algorithm_fit_transform lim m X y) h).
Proof.
  intros I M Hl E. pose proof M as [B _]. pose proof (behaves_len _ _ _ B) as L.
  unfold pclone in E. cbn [as_ref lift pbind run] in E.
  destruct (clone_cases classes h rank m lim I L ltac:(lia)) as [[_ [o' [Ec [I2 Cp]]]]|[_ [e Ec]]]; rewrite Ec in E; cbn [bind fst snd] in E; [|discriminate].
  injection E as <- <-.
  rewrite (transform_result lim m X y cov c h rank I M Hl).
  apply (transform_result lim (length h) X y cov c _ (rank_new h rank (rank m)) I2).
  - apply (mapper_of_copy h rank (h ++ [o']) (rank_new h rank (rank m)) m); try assumption. apply new_kept.
  - rewrite rank_new_new. exact Hl.
Qed.

(** *** The labels of MapperClustering *)
Theorem clustering_labels lim m X y cov c h rank : inv h rank -> mapper_clustering_of h m cov c -> rank m + 4 < lim ->
  snd (run (clustering_fit lim m X y) h) = Ok tt ->
  exists X' y' rs g lbls, validate is_nan is_inf to_float X (arg_y X y) = Ok (X', y') /\ rows X' = Ok rs /\
    mapper_graph rs (cov y') (fun _ => c) = Ok g /\
    attr (fst (run (clustering_fit lim m X y) h)) m "labels_" = Some (VLabels lbls) /\
    length lbls = length rs /\
    forall i l, nth_error lbls i = Some l ->
      (l = (-1)%Z <-> ~ exists z n ids, node_attr g z n ids /\ In i ids) /\
      forall z n ids, node_attr g z n ids -> In i ids ->
        has_node g l /\ connected g z l /\
        forall j l' z' n' ids', nth_error lbls j = Some l' -> node_attr g z' n' ids' -> In j ids' ->
          (l = l' <-> connected g z z').
Proof.
  intros I M Hl E. pose proof (clustering_result lim m X y cov c h rank I M Hl) as R. cbv zeta in R.
  pose proof (labels_fun_fits X y cov c) as Ft. unfold SpecLearn.fits_labels in Ft. fold (arg_y X y) in Ft.
  destruct (labels_fun X y cov c) as [lbls|e]; [|congruence]. destruct R as [_ A].
  destruct (validate is_nan is_inf to_float X (arg_y X y)) as [[X' y']|e]; [|discriminate].
  destruct (rows X') as [rs|e] eqn:Rw; [|destruct Ft; discriminate].
  assert (Lb : exists out, mapper_labels rs (cov y') (fun _ => c) = Ok out).
  { unfold mapper_connected_components in Ft. destruct (mapper_labels rs (cov y') (fun _ => c)); [eauto|discriminate]. }
  destruct Lb as [out Lb]. destruct (components_of_graph _ _ _ _ Lb) as [g [comps [G [Cc [Ln Sp]]]]].
  rewrite Cc in Ft. injection Ft as ->. exists X', y', rs, g, comps. split; [reflexivity|]. split; [exact Rw|]. split; [exact G|]. split; [exact A|]. split; [exact Ln|exact Sp].
Qed.

Theorem clustering_refit lim m X y cov c h rank h' : inv h rank -> mapper_clustering_of h m cov c -> rank m + 4 < lim -> history h h' ->
  snd (run (clustering_fit lim m X y) h') = snd (run (clustering_fit lim m X y) h) /\
  (snd (run (clustering_fit lim m X y) h) = Ok tt ->
   attr (fst (run (clustering_fit lim m X y) h')) m "labels_" = attr (fst (run (clustering_fit lim m X y) h)) m "labels_").
Proof.
  intros I M Hl Hi. destruct (history_fine h h' rank I Hi) as [rank' [I' [K S]]].
  assert (M' : mapper_clustering_of h' m cov c) by (apply (mapper_clustering_of_kept h rank h' rank'); assumption).
  assert (Hl' : rank' m + 4 < lim) by (rewrite S; [exact Hl|destruct M as [B _]; eapply behaves_len, B]).
  pose proof (clustering_result lim m X y cov c h rank I M Hl) as R. pose proof (clustering_result lim m X y cov c h' rank' I' M' Hl') as R'.
  cbv zeta in R, R'. destruct (labels_fun X y cov c) as [l|e].
  - destruct R as [-> ->]. destruct R' as [-> ->]. auto.
  - rewrite R, R'. split; [reflexivity|discriminate].
Qed.
End Result.
