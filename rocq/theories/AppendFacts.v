(** Nets and graphs of a dataset with further rows at the end. *)
From Coq Require Import Sorted Relations.
From Verif Require Import Base BaseFacts ModelCore SpecCore SpecNet SpecGaps SpecPacking SpecNerve SpecAppend
  CoreLabels CoreGraph CoreProp OverlapFacts GapsFacts PackingFacts NerveFacts.
Open Scope nat_scope.

Lemma filter_none {A} (P : A -> bool) l : (forall a, In a l -> P a = false) -> filter P l = [].
Proof.
  induction l as [|a l IH]; intro H; [reflexivity|]. simpl. rewrite (H a (or_introl eq_refl)). apply IH. intros b I. apply H. right. exact I.
Qed.
Lemma filter_sorted {A} (R : A -> A -> Prop) (P : A -> bool) l : StronglySorted R l -> StronglySorted R (filter P l).
Proof.
  intro S. induction S as [|a l S IH F]; [constructor|]. simpl. destruct (P a); [|exact IH]. constructor; [exact IH|].
  apply Forall_forall. intros b I. apply filter_In in I. rewrite Forall_forall in F. apply F, I.
Qed.
Lemma split_sorted {A} (R : A -> A -> Prop) (P : A -> bool) l : StronglySorted R l ->
  (forall a b, In a l -> In b l -> R a b -> P b = true -> P a = true) -> l = filter P l ++ filter (fun a => negb (P a)) l.
Proof.
  intros S. induction S as [|a l S IH F]; intro H; [reflexivity|].
  assert (H' : forall a0 b, In a0 l -> In b l -> R a0 b -> P b = true -> P a0 = true) by (intros x y Ix Iy; apply H; right; assumption).
  simpl. destruct (P a) eqn:E; simpl; [f_equal; exact (IH H')|].
  assert (Z0 : filter P l = []).
  { rewrite Forall_forall in F. apply filter_none. intros b I. destruct (P b) eqn:Eb; [|reflexivity].
    rewrite <- E. symmetry. apply (H a b); [left; reflexivity|right; exact I|apply F, I|exact Eb]. }
  rewrite Z0. simpl. f_equal. rewrite (IH H') at 1. rewrite Z0. reflexivity.
Qed.

(** *** Nets *)
Section Net.
Context {S : Type} (X Y : list S) (search search' : S -> res (list nat)).
Let n := length X.
Hypothesis Agree : forall i x, nth_error X i = Some x -> exists s s', search x = Ok s /\ search' x = Ok s' /\ In i s /\
  forall j, In j s <-> In j s' /\ j < n.

Lemma old_row i : i < n -> nth_error (X ++ Y) i = nth_error X i.
Proof. intro H. apply nth_error_app1. exact H. Qed.

Lemma append_net centers sets centers' sets' : first_come X search centers sets -> first_come (X ++ Y) search' centers' sets' ->
  (exists more, centers' = centers ++ more /\ Forall (le n) more) /\ grows n 0 sets sets'.
Proof.
  intros H H'.
  assert (Lt : forall i, In i centers -> i < n).
  { intros i I. destruct (proj1 (first_come_member search X centers sets i H) I) as [x [_ [E _]]]. exact (nth_error_lt _ _ _ E). }
  assert (Q : forall i, i < n -> (In i centers <-> In i centers')).
  { intro i. induction i as [i IH] using lt_wf_ind. intro Hi.
    rewrite (first_come_member search X centers sets i H), (first_come_member search' (X ++ Y) centers' sets' i H').
    rewrite (old_row i Hi). split.
    - intros [x [s [Ex [Es [Ne D]]]]]. destruct (Agree i x Ex) as [s0 [s' [E1 [E2 [Ii Ij]]]]]. exists x, s'. split; [exact Ex|]. split; [exact E2|].
      split; [intros ->; apply Ij in Ii; destruct Ii as [[] _]|]. intros c y t' Ic L Ey Et I. rewrite old_row in Ey by lia.
      destruct (Agree c y Ey) as [t [t2 [F1 [F2 [_ Fj]]]]]. assert (t2 = t') by congruence. subst t2.
      apply (D c y t); auto; [apply IH; [exact L|lia|exact Ic]|]. apply Fj. split; assumption.
    - intros [x [s' [Ex [Es [Ne D]]]]]. destruct (Agree i x Ex) as [s [s0 [E1 [E2 [Ii Ij]]]]]. exists x, s. split; [exact Ex|]. split; [exact E1|].
      split; [intros ->; exact Ii|]. intros c y t Ic L Ey Et I. destruct (Agree c y Ey) as [t2 [t' [F1 [F2 [_ Fj]]]]].
      assert (t2 = t) by congruence. subst t2. apply (D c y t'); auto; [apply IH; [exact L|lia|exact Ic]|rewrite old_row by lia; exact Ey|].
      apply Fj, I. }
  destruct H as [[S1 [F1 _]] _], H' as [[S2 [F2 _]] _].
  assert (E : centers' = filter (fun c => c <? n) centers' ++ filter (fun c => negb (c <? n)) centers').
  { apply (split_sorted lt); [exact S2|]. intros a b _ _ L Eb. apply Nat.ltb_lt in Eb. apply Nat.ltb_lt. lia. }
  assert (E2 : filter (fun c => c <? n) centers' = centers).
  { apply sorted_same; [apply filter_sorted, S2|exact S1|]. intro i. rewrite filter_In, Nat.ltb_lt. split.
    - intros [I L]. apply Q; assumption.
    - intro I. split; [apply Q; auto|auto]. }
  rewrite E2 in E. split.
  - exists (filter (fun c => negb (c <? n)) centers'). split; [exact E|]. apply Forall_forall. intros c I. apply filter_In in I.
    destruct I as [_ I]. apply Bool.negb_true_iff, Nat.ltb_ge in I. exact I.
  - intros k s Es. destruct (F2_nth _ _ _ _ _ F1 Es) as [c [Ec [[x [Ex Sx]] _]]].
    assert (Ec' : nth_error centers' k = Some c) by (rewrite E, nth_error_app1 by exact (nth_error_lt _ _ _ Ec); exact Ec).
    destruct (F2_nth_l _ _ _ _ _ F2 Ec') as [s' [Es' [[x' [Ex' Sx']] _]]]. exists s'. split; [exact Es'|].
    rewrite old_row in Ex' by exact (nth_error_lt _ _ _ Ex). assert (x' = x) by congruence. subst x'.
    destruct (Agree c x Ex) as [t [t' [T1 [T2 [_ Tj]]]]]. assert (t = s) by congruence. assert (t' = s') by congruence. subst t t'. exact Tj.
Qed.
End Net.

(** *** Graphs *)
Lemma nerve_keeps n off opens opens' g g' : well_formed g ->
  (forall a b, adjacent g a b -> has_node g a /\ has_node g b) ->
  is_nerve opens g -> is_nerve opens' g' -> grows n off opens opens' -> keeps n off g g'.
Proof.
  intros W Ends [V1 [V2 V3]] [V1' [V2' V3']] G. split.
  - intros z size ids A. assert (Hz : has_node g z) by (apply in_map_iff; exists (z, (size, ids)); split; [reflexivity|exact A]).
    apply V1 in Hz. destruct Hz as [k [s [-> E]]]. destruct (V2 k s E) as [ids0 [A0 [_ Q0]]].
    pose proof (attr_unique g _ _ _ (proj1 W) A A0) as Q. injection Q as -> ->. destruct (G k s E) as [s' [E' Q]].
    destruct (V2' _ s' E') as [ids' [A' [_ Q']]]. exists (length s'), ids'. rewrite Nat2Z.inj_add in A'. split; [exact A'|].
    intro i. rewrite Q0, Q, Q'. reflexivity.
  - intros a b Ab. destruct (Ends a b Ab) as [Na Nb]. apply V1 in Na. apply V1 in Nb. destruct Na as [k [_ [-> _]]], Nb as [k' [_ [-> _]]].
    apply V3 in Ab. destruct Ab as [D [s [s' [i [E [E' [Is Is']]]]]]]. rewrite <- !Nat2Z.inj_add. apply V3'. split; [lia|].
    destruct (G k s E) as [t [Et Qt]]. destruct (G k' s' E') as [t' [Et' Qt']]. exists t, t', i. split; [exact Et|]. split; [exact Et'|].
    split; [apply Qt, Is|apply Qt', Is'].
Qed.
Lemma graph_ends {S} (X : list S) opens clust g : mapper_graph X opens clust = Ok g -> sets_nodup (yields opens) ->
  forall a b, adjacent g a b -> has_node g a /\ has_node g b.
Proof.
  intros G N a b Ab. destruct (graph_described X _ _ g G N) as [name [_ [Hn [_ [_ Ad]]]]]. apply Ad in Ab.
  destruct Ab as [_ [k [l [k' [l' [i [C1 [C2 [-> ->]]]]]]]]]. split; apply Hn; [exists k, l|exists k', l']; (split; [exists i; assumption|reflexivity]).
Qed.
Lemma graph_keeps {S} (X X' : list S) n off opens opens' g g' :
  mapper_graph X opens (fun _ => trivial_clustering) = Ok g -> mapper_graph X' opens' (fun _ => trivial_clustering) = Ok g' ->
  sets_nodup (yields opens) -> sets_nodup (yields opens') -> ~ In [] (yields opens) -> ~ In [] (yields opens') ->
  grows n off (yields opens) (yields opens') -> keeps n off g g'.
Proof.
  intros G G' N N' Ne Ne' Gr. destruct (graph_nodes_are_clusters X _ _ g G N) as [W _].
  apply (nerve_keeps n off (yields opens) (yields opens')); auto; [exact (graph_ends X opens _ g G N)|apply (trivial_nerve X)|apply (trivial_nerve X')]; auto.
Qed.
Lemma components_keep {S} (X X' : list S) n off opens opens' comps comps' :
  mapper_connected_components X opens (fun _ => trivial_clustering) = Ok comps ->
  mapper_connected_components X' opens' (fun _ => trivial_clustering) = Ok comps' ->
  grows n off (yields opens) (yields opens') -> splits_components comps comps'.
Proof.
  intros H H' Gr i j c c' d' Hi Hj Nc Hi' Hj'.
  assert (exists out, mapper_labels X opens (fun _ => trivial_clustering) = Ok out) as [out Ho].
  { unfold mapper_connected_components in H. apply bind_ok in H. destruct H as [out [Ho _]]. exists out. exact Ho. }
  assert (exists out, mapper_labels X' opens' (fun _ => trivial_clustering) = Ok out) as [out' Ho'].
  { unfold mapper_connected_components in H'. apply bind_ok in H'. destruct H' as [out' [Ho' _]]. exists out'. exact Ho'. }
  destruct (components_chain X opens _ comps H) as [_ Q]. destruct (components_chain X' opens' _ comps' H') as [_ Q'].
  destruct (Q i c Hi) as [_ Qi]. destruct (Q' i c' Hi') as [_ Qi'].
  assert (T : clos_trans nat (share_cluster X (yields opens) (fun _ => trivial_clustering)) i j) by (apply (Qi j c Hj); auto).
  apply (Qi' j d' Hj'). clear - T Gr Ho Ho'. induction T as [i j [k [l [A B]]]|i m j _ IH1 _ IH2]; [|eapply t_trans; eassumption].
  apply t_step. apply (trivial_cluster X opens k l _ out Ho) in A. apply (trivial_cluster X opens k l _ out Ho) in B.
  destruct A as [_ [s [Es Is]]], B as [_ [s2 [Es2 Is2]]]. assert (s2 = s) by congruence. subst s2.
  destruct (Gr k s Es) as [t [Et Qt]]. exists (off + k), 0%Z.
  split; apply (trivial_cluster X' opens' _ _ _ out' Ho'); (split; [reflexivity|]); exists t; (split; [exact Et|apply Qt; assumption]).
Qed.
