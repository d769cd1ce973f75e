(** Proofs about the connected components. *)
From Verif Require Import Base BaseFacts Dict DictFacts ModelUnionFind SpecUnionFind UnionFindFacts UnionFindProp
  ModelCore SpecCore CoreLabels CoreGraph.
Open Scope Z_scope.

Definition pair_ops (lbls : list Z) : list (uf_op Z) :=
  map (fun p => UUnion (fst p) (snd p)) (combine lbls (tl lbls)).
Definition comp_ops (itm : list (list Z)) : list (uf_op Z) := flat_map pair_ops itm.

Lemma uf_run_app (u : uf Z) o1 o2 :
  uf_run Z.eqb u (o1 ++ o2) =
  do r <- uf_run Z.eqb u o1; do r2 <- uf_run Z.eqb (snd r) o2; Ok (fst r ++ fst r2, snd r2).
Proof.
  revert u; induction o1 as [|o o1 IH]; intro u; cbn [uf_run app bind].
  - cbn [snd]. destruct (uf_run Z.eqb u o2) as [[outs u2]|e]; reflexivity.
  - destruct (uf_step Z.eqb u o) as [[out u1]|e]; cbn [bind]; [|reflexivity].
    rewrite IH. destruct (uf_run Z.eqb u1 o1) as [[outs u2]|e]; cbn [bind fst snd]; [|reflexivity].
    destruct (uf_run Z.eqb u2 o2) as [[outs2 u3]|e]; reflexivity.
Qed.

Lemma union_pairs_run lbls u :
  union_pairs lbls u = do r <- uf_run Z.eqb u (pair_ops lbls); Ok (snd r).
Proof.
  unfold union_pairs, pair_ops. generalize (combine lbls (tl lbls)). intro ps. revert u.
  induction ps as [|[a b] ps IH]; intro u; cbn [for_each map uf_run bind]; [reflexivity|].
  cbn [fst snd uf_step]. destruct (uf_union Z.eqb u a b) as [[r u1]|e]; cbn [bind snd]; [|reflexivity].
  rewrite IH. destruct (uf_run Z.eqb u1 _) as [[outs u2]|e]; reflexivity.
Qed.

Lemma union_all_run itm : forall u,
  union_all itm u = do r <- uf_run Z.eqb u (comp_ops itm); Ok (snd r).
Proof.
  unfold union_all, comp_ops. induction itm as [|lbls itm IH]; intro u; cbn [for_each flat_map]; [reflexivity|].
  rewrite uf_run_app.
  assert (E : (if (1 <? length lbls)%nat then union_pairs lbls u else Ok u) =
              do r <- uf_run Z.eqb u (pair_ops lbls); Ok (snd r)).
  { destruct (Nat.ltb_spec 1 (length lbls)) as [H|H]; [apply union_pairs_run|].
    destruct lbls as [|a [|b t]]; simpl in H; [reflexivity|reflexivity|lia]. }
  rewrite E. destruct (uf_run Z.eqb u (pair_ops lbls)) as [[outs u1]|e]; cbn [bind snd]; [|reflexivity].
  rewrite IH. destruct (uf_run Z.eqb u1 (flat_map pair_ops itm)) as [[o2 u2]|e]; reflexivity.
Qed.

Lemma in_pair_ops lbls a b :
  In (UUnion a b) (pair_ops lbls) <-> exists i, nth_error lbls i = Some a /\ nth_error lbls (Datatypes.S i) = Some b.
Proof.
  unfold pair_ops. rewrite in_map_iff. split.
  - intros [[x y] [H1 H2]]. cbn [fst snd] in H1. injection H1 as -> ->. apply in_combine_nth in H2.
    destruct H2 as [i [H2 H3]]. exists i. split; [exact H2|]. destruct lbls; [destruct i; discriminate|exact H3].
  - intros [i [H1 H2]]. exists (a, b). split; [reflexivity|]. apply in_combine_nth. exists i.
    split; [exact H1|]. destruct lbls; [discriminate|exact H2].
Qed.

Lemma in_comp_ops itm a b :
  united (comp_ops itm) a b <-> exists i lbls k, nth_error itm i = Some lbls /\
    nth_error lbls k = Some a /\ nth_error lbls (Datatypes.S k) = Some b.
Proof.
  unfold united, comp_ops. rewrite in_flat_map. split.
  - intros [lbls [H1 H2]]. apply In_nth_error in H1. destruct H1 as [i Hi].
    apply in_pair_ops in H2. destruct H2 as [k H2]. exists i, lbls, k. tauto.
  - intros [i [lbls [k [H1 H2]]]]. exists lbls. split; [eapply nth_error_In; eauto|].
    apply in_pair_ops. eauto.
Qed.

Lemma comp_ops_only itm : only_mentions (label_values itm) (comp_ops itm).
Proof.
  intros o x Ho Hx. unfold label_values. apply nodup_In, in_concat.
  unfold comp_ops in Ho. apply in_flat_map in Ho. destruct Ho as [lbls [H1 H2]].
  exists lbls. split; [exact H1|]. unfold pair_ops in H2. apply in_map_iff in H2.
  destruct H2 as [[a b] [<- H2]]. apply in_combine_nth in H2. destruct H2 as [i [H2 H3]].
  cbn [mentions fst snd] in Hx. destruct Hx as [<-|[<-|[]]].
  - eapply nth_error_In; eauto.
  - destruct lbls; [destruct i; discriminate|]. apply nth_error_In in H3. right; exact H3.
Qed.

(** All labels of one point are related. *)
Lemma row_related itm i lbls a b :
  nth_error itm i = Some lbls -> In a lbls -> In b lbls -> generated (united (comp_ops itm)) a b.
Proof.
  intros Hi Ha Hb.
  assert (G : forall k a0 x, nth_error lbls 0 = Some a0 -> nth_error lbls k = Some x ->
                generated (united (comp_ops itm)) a0 x).
  { induction k as [|k IH]; intros a0 x H0 Hx.
    - rewrite H0 in Hx. injection Hx as ->. apply rst_refl.
    - destruct (nth_error_ex lbls k) as [y Hy]; [apply nth_error_lt in Hx; lia|].
      apply rst_trans with y; [apply IH; auto|]. apply rst_step. apply in_comp_ops.
      exists i, lbls, k. auto. }
  apply In_nth_error in Ha, Hb. destruct Ha as [k Hk], Hb as [k' Hk'].
  destruct (nth_error_ex lbls 0) as [a0 H0]; [apply nth_error_lt in Hk; lia|].
  apply rst_trans with a0; [apply rst_sym|]; eapply G; eauto.
Qed.

Lemma generated_connected itm g :
  (forall a b, adjacent g a b <-> exists i lbls, nth_error itm i = Some lbls /\ together lbls a b) ->
  forall a b, generated (united (comp_ops itm)) a b <-> connected g a b.
Proof.
  intros HA a b. split; intro H.
  - induction H as [x y H|x|x y _ IH|x y z _ IH1 _ IH2].
    + apply in_comp_ops in H. destruct H as [i [lbls [k [H1 [H2 H3]]]]].
      apply rst_step, HA. exists i, lbls. split; [exact H1|]. exists k, (Datatypes.S k). split; [lia|auto].
    + apply rst_refl.
    + apply rst_sym, IH.
    + eapply rst_trans; eauto.
  - induction H as [x y H|x|x y _ IH|x y z _ IH1 _ IH2].
    + apply HA in H. destruct H as [i [lbls [H1 [k [k' [_ [H2 H3]]]]]]].
      eapply row_related; eauto; eapply nth_error_In; eauto.
    + apply rst_refl.
    + apply rst_sym, IH.
    + eapply rst_trans; eauto.
Qed.

Notation par u := (dget Z.eqb (uf_parent u)).

Lemma assign_roots_correct items R itm : forall u,
  uf_inv Z.eqb items R u -> (forall lbls z, In lbls itm -> In z lbls -> In z items) ->
  exists out, assign_roots itm u = Ok out /\
    Forall2 (fun lbls c => match lbls with [] => c = -1 | l0 :: _ => exists n, links (par u) l0 n c end) itm out.
Proof.
  induction itm as [|lbls itm IH]; intros u I Hin; cbn [assign_roots].
  - exists []. auto.
  - assert (Hin' : forall l z, In l itm -> In z l -> In z items) by (intros l z H1 H2; apply (Hin l); [right|]; auto).
    destruct lbls as [|l0 t].
    + destruct (IH u I Hin') as [out [E F]]. rewrite E. cbn [bind]. eauto.
    + assert (H0 : In l0 items) by (apply (Hin (l0 :: t)); left; reflexivity).
      destruct (uf_find_correct Z.eqb Z_eqb_decides items R u l0 I H0) as [r [u' [n [E [I' [L [HR _]]]]]]].
      rewrite E. cbn [bind fst snd]. destruct (IH u' I' Hin') as [out [E2 F]]. rewrite E2. cbn [bind].
      exists (r :: out). split; [reflexivity|]. constructor; [eauto|].
      clear - HR F I Hin'. induction F as [|lbls c itm out Hc F IHF]; constructor.
      * destruct lbls as [|z zs]; [exact Hc|]. destruct Hc as [m Hm].
        assert (Hz : In z items) by (apply (Hin' (z :: zs)); left; reflexivity).
        destruct (inv_root _ _ _ _ I z Hz) as [k [s Ls]]. destruct (proj2 HR _ _ _ Ls) as [k' [_ Ls']].
        destruct (links_det _ _ _ _ Hm _ _ Ls') as [_ ->]. eauto.
      * apply IHF. intros l z H1 H2. apply (Hin' l); [right|]; auto.
Qed.

Lemma Forall2_nth {A B} (P : A -> B -> Prop) l l' i a b :
  Forall2 P l l' -> nth_error l i = Some a -> nth_error l' i = Some b -> P a b.
Proof.
  intro H. revert i; induction H as [|x y l l' Hxy H IH]; intros [|i] H1 H2; simpl in *; try discriminate; eauto.
  congruence.
Qed.

Lemma Forall2_length {A B} (P : A -> B -> Prop) l l' : Forall2 P l l' -> length l = length l'.
Proof. induction 1; simpl; congruence. Qed.

Lemma components_correct itm g :
  graph_of_labels itm = Ok g ->
  (forall i lbls z, nth_error itm i = Some lbls -> In z lbls -> 0 <= z) ->
  exists out,
    (do u <- union_all itm (uf_init Z.eqb (Reusable (label_values itm))); assign_roots itm u) = Ok out /\
    length out = length itm /\
    forall i c lbls, nth_error out i = Some c -> nth_error itm i = Some lbls ->
      (c = -1 <-> lbls = []) /\
      (forall z, In z lbls -> has_node g c /\ connected g z c) /\
      (forall j c' lbls' z z', nth_error out j = Some c' -> nth_error itm j = Some lbls' ->
         In z lbls -> In z' lbls' -> (c = c' <-> connected g z z')).
Proof.
  intros Hg Hnn. destruct (graph_of_labels_correct itm) as [g' [Eg [_ [HN [_ HA]]]]].
  rewrite Hg in Eg. injection Eg as <-.
  assert (HC := generated_connected itm g HA).
  rewrite union_all_run.
  destruct (uf_reach Z.eqb Z_eqb_decides (label_values itm) (comp_ops itm) (comp_ops_only itm))
    as [outs [u [R [E [I [_ HR]]]]]].
  rewrite E. cbn [bind snd].
  assert (Hit : forall lbls z, In lbls itm -> In z lbls -> In z (label_values itm)).
  { intros lbls z H1 H2. unfold label_values. apply nodup_In, in_concat. eauto. }
  destruct (assign_roots_correct _ _ itm u I Hit) as [out [Eo F]].
  exists out. split; [exact Eo|]. split; [symmetry; eapply Forall2_length; eauto|].
  assert (Key : forall i c lbls z, nth_error out i = Some c -> nth_error itm i = Some lbls -> In z lbls ->
     In c (label_values itm) /\ R z c /\ exists n, links (par u) z n c).
  { intros i c lbls z Hc Hl Hz. assert (P := Forall2_nth _ _ _ _ _ _ F Hl Hc). cbn in P.
    destruct lbls as [|l0 t]; [contradiction|]. destruct P as [n L].
    assert (Hcc : par u c = Some c) by (eapply links_end; eauto).
    assert (Hc' : In c (label_values itm)) by (apply (inv_dom _ _ _ _ I); eauto).
    assert (H0 : R l0 c) by (eapply (inv_rel _ _ _ _ I); eauto; constructor; exact Hcc).
    assert (Hz' : In z (label_values itm)) by (eapply Hit; eauto; eapply nth_error_In; eauto).
    destruct (inv_root _ _ _ _ I z Hz') as [m [r Lz]].
    assert (Rz : R l0 z).
    { apply HR. eapply row_related; eauto. left; reflexivity. }
    assert (r = c) by (symmetry; eapply (inv_rel _ _ _ _ I); eauto). subst r.
    split; [exact Hc'|]. split; [|eauto].
    apply HR. apply HR in Rz. apply HR in H0. eapply rst_trans; [apply rst_sym; exact Rz|exact H0]. }
  intros i c lbls Hc Hl. split; [|split].
  - assert (P := Forall2_nth _ _ _ _ _ _ F Hl Hc). cbn in P. destruct lbls as [|l0 t]; [tauto|].
    split; [|discriminate]. intros ->. exfalso.
    destruct (Key i (-1) (l0 :: t) l0 Hc Hl (or_introl eq_refl)) as [H1 _].
    unfold label_values in H1. apply nodup_In, in_concat in H1. destruct H1 as [l [H1 H2]].
    apply In_nth_error in H1. destruct H1 as [k Hk]. specialize (Hnn k l (-1) Hk H2). lia.
  - intros z Hz. destruct (Key i c lbls z Hc Hl Hz) as [H1 [H2 _]]. split.
    + apply HN. unfold label_values in H1. apply nodup_In, in_concat in H1. destruct H1 as [l [H1 H3]].
      apply In_nth_error in H1. destruct H1 as [k Hk]. eauto.
    + apply HC, HR, H2.
  - intros j c' lbls' z z' Hc' Hl' Hz Hz'.
    destruct (Key i c lbls z Hc Hl Hz) as [_ [_ [n L]]].
    destruct (Key j c' lbls' z' Hc' Hl' Hz') as [_ [_ [n' L']]].
    rewrite (inv_rel _ _ _ _ I _ _ _ _ _ _ L L'). rewrite HR. apply HC.
Qed.
