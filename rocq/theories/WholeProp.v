(** Whole Mapper runs. *)
From Coq Require Import String Reals Lra.
From Flocq Require Import Core BinarySingleNaN.
From Verif Require Import Base BaseFacts ModelCore SpecCore SpecNet CoreLabels CoreProp SpecWhole
  ModelVPTree ModelArith ModelCover SpecCover ModelMetrics SpecMetrics SpecCubical ModelFloat FloatFacts SpecDouble FloatNamed FloatCubicalFit.
Open Scope Z_scope.

Section Whole.
Context {S : Type}.
Variable X : list S.

Lemma ids_points ids : (forall i, In i ids -> (i < length X)%nat) ->
  exists xs, Forall2 (fun j x => nth_error X j = Some x) ids xs /\ incl xs X.
Proof.
  induction ids as [|i ids IH]; intro H.
  - exists []. split; [constructor|intros x []].
  - destruct IH as [xs [F I]]; [intros; apply H; right; assumption|].
    destruct (nth_error X i) as [x|] eqn:N; [|apply nth_error_None in N; specialize (H i (or_introl eq_refl)); lia].
    exists (x :: xs). split; [constructor; assumption|]. intros y [<-|Hy]; [eapply nth_error_In, N|apply I, Hy].
Qed.

Lemma lost_iff_noise opens (clust : clustering S) out i lbls :
  mapper_labels X opens clust = Ok out -> nth_error out i = Some lbls ->
  (lbls = [] <-> forall k ids ls j l, local_labels X (yields opens) clust k ids ls ->
     nth_error ids j = Some i -> nth_error ls j = Some l -> l < 0).
Proof.
  intros E N. destruct (labels_are_clusters X opens clust out E) as [_ [name [_ H]]]. specialize (H i lbls N). split.
  - intros -> k ids ls j l L Hj Hl. destruct (Z_lt_le_dec l 0) as [|P]; [assumption|]. exfalso.
    apply (proj2 (H (name k l))). exists k, l. split; [|reflexivity]. split; [exact P|]. exists ids, ls, j. auto.
  - intro Hn. destruct lbls as [|z lbls]; [reflexivity|]. exfalso.
    destruct (proj1 (H z) (or_introl eq_refl)) as [k [l [[P [ids [ls [j [L [Hj Hl]]]]]] _]]].
    specialize (Hn k ids ls j l L Hj Hl). lia.
Qed.

Lemma proper_no_point_lost opens (clust : clustering S) :
  proper_cover (length X) opens -> labels_every_point X clust -> no_point_lost X opens clust.
Proof.
  intros [St [Cv Pr]] Hc.
  assert (J : forall k ids, nth_error (yields opens) k = Some ids -> exists lbls,
    local_labels X (yields opens) clust k ids lbls /\ length lbls = length ids /\ Forall (fun l => 0 <= l) lbls).
  { intros k ids Nk. destruct (Pr ids (nth_error_In _ _ Nk)) as [Ne [_ Lt]].
    destruct (ids_points ids Lt) as [xs [F I]]. assert (L : length xs = length ids) by (clear - F; induction F; simpl; congruence).
    destruct (Hc k xs) as [ls [E [Ll P]]]; [|exact I|].
    - intros ->. destruct ids; [congruence|discriminate].
    - exists ls. split; [split; [exact Nk|]; exists xs; auto|]. split; [congruence|exact P]. }
  destruct (labels_total X opens clust St) as [out E].
  { intros k Hk. destruct (nth_error (yields opens) k) as [ids|] eqn:Nk; [|apply nth_error_None in Nk; lia].
    destruct (J k ids Nk) as [ls [L _]]. exists ids, ls. exact L. }
  destruct (components_of_graph X opens clust out E) as [g [comps [Eg [Ec [Lc Hcomp]]]]].
  destruct (labels_are_clusters X opens clust out E) as [Lo _].
  assert (Hin : forall i, (i < length X)%nat -> exists k l, in_cluster X (yields opens) clust k l i).
  { intros i Hi. destruct (Cv i Hi) as [s [Is Ii]]. apply In_nth_error in Is as [k Nk]. apply In_nth_error in Ii as [j Nj].
    destruct (J k s Nk) as [ls [L [Ll P]]].
    destruct (nth_error ls j) as [l|] eqn:Nl; [|apply nth_error_None in Nl; apply nth_error_lt in Nj; lia].
    exists k, l. rewrite Forall_forall in P. split; [apply P; eapply nth_error_In, Nl|]. exists s, ls, j. auto. }
  assert (Nd : sets_nodup (yields opens)) by (apply Forall_forall; intros s Hs; apply (Pr s Hs)).
  destruct (graph_nodes_are_clusters X opens clust g Eg Nd) as [_ [name [_ [_ Hn]]]].
  assert (Hnode : forall i, (i < length X)%nat -> exists z n ids, node_attr g z n ids /\ In i ids).
  { intros i Hi. destruct (Hin i Hi) as [k [l C]]. destruct (Hn k l (ex_intro _ i C)) as [ids [A [_ B]]].
    exists (name k l), (length ids), ids. split; [exact A|]. apply B, C. }
  exists out, g, comps. repeat (split; [assumption|]). split; [|split; [|exact Hnode]].
  - apply Forall_forall. intros lbls Hl. apply In_nth_error in Hl as [i Ni]. intros ->.
    assert (Hi : (i < length X)%nat) by (rewrite <- Lo; eapply nth_error_lt, Ni).
    destruct (Hin i Hi) as [k [l [P [ids [ls [j [L [Nj Nl]]]]]]]].
    pose proof (proj1 (lost_iff_noise opens clust out i [] E Ni) eq_refl k ids ls j l L Nj Nl). lia.
  - apply Forall_forall. intros c Hc0. apply In_nth_error in Hc0 as [i Ni].
    assert (Hi : (i < length X)%nat) by (rewrite <- Lc; eapply nth_error_lt, Ni).
    destruct (Hnode i Hi) as [z [n [ids [A B]]]]. destruct (Hcomp i c Ni) as [_ H]. destruct (H z n ids A B) as [H1 _]. exact H1.
Qed.
End Whole.

Lemma ball_proper name m (c : ball_cover b64) (Y : list (list b64)) :
  In name three -> (Z.of_nat m <= 2 ^ 20)%Z -> Forall (moderate m) Y ->
  finite (bc_radius c) -> (0 < value (bc_radius c))%R -> opt_magnitude (bc_leaf_radius c) ->
  (1 <= bc_leaf_capacity c)%nat -> tp_kind (bc_tree c) <> OtherKind ->
  exists d, get_metric BA b_sqrt (Name name) [] = Ok (total_fn BA d) /\
    proper_cover (length Y) (ball_apply b_le b_lt b_gap b_zero d c Y).
Proof.
  intros H1 H2 H3 H4 H5 H6 H7 H8. destruct (named_ball_cover name m c Y H1 H2 H3 H4 H5 H6 H7 H8) as [d [D [cs [G [_ [St [Cv [_ [F _]]]]]]]]].
  exists d. split; [exact G|]. split; [exact St|]. split; [exact Cv|]. intros s Hs.
  assert (F' : exists i x, nth_error Y i = Some x /\ In i s /\ ball_of m d D (value (bc_radius c)) Y x s).
  { clear - F Hs. induction F as [|i s' cs ss [x H] F IH]; [contradiction|]. destruct Hs as [<-|Hs]; [eauto|auto]. }
  destruct F' as [i [x [_ [Ii [Nd [B _]]]]]]. split; [intros ->; contradiction|]. split; [exact Nd|].
  intros j Hj. destruct (B j Hj) as [y [Ny _]]. eapply nth_error_lt, Ny.
Qed.
