(** X and y of different lengths. *)
From Verif Require Import Base BaseFacts ModelCore SpecCore SpecNet CoreLabels CoreGraph CoreProp.
Open Scope nat_scope.
Section Lengths.
Context {S : Type}.
Variable X : list S.
Variable clust : clustering S.

(** Points in no open set are in no node. *)
Lemma no_set_no_node opens g i : mapper_graph X opens clust = Ok g ->
  (forall ids, In ids (yields opens) -> ~ In i ids) -> ~ exists z n ids, node_attr g z n ids /\ In i ids.
Proof.
  intros G Hs [z [n [ids [A I]]]]. unfold mapper_graph in G. apply bind_ok in G. destruct G as [out [Ho G]].
  destruct (graph_of_labels_correct out) as [g' [E [_ [_ [HT _]]]]]. rewrite G in E. injection E as <-.
  apply HT in A. destruct A as [_ [-> _]]. apply in_ids_of, in_pts in I. destruct I as [m [lbls [N [Iz ->]]]]. simpl in *.
  destruct (labels_are_clusters X opens clust out Ho) as [_ [name [_ HI]]]. apply (HI m lbls N z) in Iz.
  destruct Iz as [k [l [[_ [ids' [lbls' [j [[Nk _] [Nj _]]]]]] _]]]. apply (Hs ids'); eapply nth_error_In; eassumption.
Qed.

(** An index beyond the data makes it fail; with a clustering that never raises
    the exception is IndexError. *)
Lemma bad_index_fails opens ids j : In ids (yields opens) -> In j ids -> length X <= j ->
  (exists e, mapper_graph X opens clust = Err e) /\
  ((forall k xs, exists lbls, clust k xs = Ok lbls) -> mapper_graph X opens clust = Err IndexError).
Proof.
  intros Ii Ij L. destruct (mapper_graph X opens clust) as [g|e] eqn:G.
  - exfalso. apply In_nth_error in Ii as [k Nk].
    destruct (mapper_labels X opens clust) as [out|e] eqn:Lb; [|apply graph_fails in Lb; congruence].
    unfold mapper_labels in Lb. apply bind_ok in Lb as [parts [R _]].
    assert (Q : forall ops after k0 parts, run_jobs X clust k0 ops after = Ok parts -> forall s, In s ops -> exists xs, map_res (rd X) s = Ok xs).
    { clear. induction ops as [|o ops IH]; intros after k0 parts R s Is; [destruct Is|]. cbn [run_jobs] in R.
      apply bind_ok in R as [p [R1 R2]]. apply bind_ok in R2 as [ps [R2 _]]. destruct Is as [->|Is]; [|eapply IH; eassumption].
      unfold run_clustering in R1. apply bind_ok in R1 as [xs [R1 _]]. eauto. }
    destruct (Q _ _ _ _ R ids (nth_error_In _ _ Nk)) as [xs M]. clear -M Ij L. revert xs M. induction ids as [|i ids IH]; intros xs M; [destruct Ij|].
    simpl in M. apply bind_ok in M as [x [M1 M2]]. apply bind_ok in M2 as [xs' [M2 _]]. destruct Ij as [->|Ij]; [|eapply IH; eassumption].
    apply rd_ok, nth_error_lt in M1. lia.
  - split; [eauto|]. intro Cs. f_equal. apply graph_fails in G. apply labels_fail in G as [[k [[s [Nk [[-> _]|[xs [_ Ce]]]]] _]]|[_ Al]].
    + reflexivity.
    + destruct (Cs k xs). congruence.
    + exfalso. apply In_nth_error in Ii as [k Nk]. destruct (Al k) as [s [lbls [Nk' [xs [Fx _]]]]]; [eapply nth_error_lt; eassumption|].
      rewrite Nk in Nk'. injection Nk' as <-. apply (Forall2_in_range X ids xs j Fx) in Ij. lia.
Qed.
End Lengths.
