(** Public form of the facts about core.py. *)
From Verif Require Import Base BaseFacts Dict DictFacts ModelUnionFind UnionFindProp
  ModelCore SpecCore SpecNet CoreLabels CoreGraph CoreComponents.
Open Scope Z_scope.

Lemma SSorted_Zlt_NoDup l : StronglySorted Z.lt l -> NoDup l.
Proof.
  induction 1 as [|x l Hs IH Hf]; constructor; auto.
  intro Hx. rewrite Forall_forall in Hf. specialize (Hf x Hx). lia.
Qed.

Section CP.
Context {S : Type}.
Variables (X : list S) (opens : gen (list nat)) (clust : clustering S).

Lemma labels_total :
  stops opens = None ->
  (forall k, (k < length (yields opens))%nat -> job_succeeds X (yields opens) clust k) ->
  exists out, mapper_labels X opens clust = Ok out.
Proof.
  intros Hs H. apply mapper_labels_total; [exact Hs|]. intros k ids Hk.
  destruct (H k) as [ids' [lbls HL]]; [eapply nth_error_lt; eauto|].
  destruct HL as [E HL]. rewrite Hk in E. injection E as <-. exists lbls. split; assumption.
Qed.

(** Exact failure behaviour. *)
Lemma map_res_rd_cases (ids : list nat) :
  (exists xs, map_res (rd X) ids = Ok xs /\ Forall2 (fun j x => nth_error X j = Some x) ids xs) \/
  (map_res (rd X) ids = Err IndexError /\ exists j, In j ids /\ (length X <= j)%nat).
Proof.
  induction ids as [|j ids IH]; cbn [map_res]; [left; exists []; auto|].
  destruct (Nat.lt_ge_cases j (length X)) as [H|H].
  - destruct (rd_lt X j H) as [x [E Hx]]. rewrite E. cbn [bind].
    destruct IH as [[xs [E2 F]]|[E2 [j' [Hj Hl]]]]; rewrite E2; cbn [bind].
    + left. exists (x :: xs). auto.
    + right. split; [reflexivity|]. exists j'. split; [right; exact Hj|exact Hl].
  - rewrite (rd_ge X j H). cbn [bind]. right. split; [reflexivity|]. exists j. split; [left; reflexivity|exact H].
Qed.

Lemma Forall2_in_range ids (xs : list S) j :
  Forall2 (fun j x => nth_error X j = Some x) ids xs -> In j ids -> (j < length X)%nat.
Proof.
  induction 1 as [|a b l l' Hab H IH]; [contradiction|]. intros [<-|Hj]; [eapply nth_error_lt; eauto|auto].
Qed.

Lemma run_jobs_err ops after : forall k e,
  run_jobs X clust k ops after = Err e <->
  (exists m, job_fails X ops (fun i => clust (k + i)%nat) m e /\
     forall m', (m' < m)%nat -> job_succeeds X ops (fun i => clust (k + i)%nat) m') \/
  (after = Some e /\ forall m, (m < length ops)%nat -> job_succeeds X ops (fun i => clust (k + i)%nat) m).
Proof.
  induction ops as [|ids ops IH]; intros k e; cbn [run_jobs].
  - split.
    + destruct after; [|discriminate]. intro H. injection H as ->. right. split; [reflexivity|].
      intros m Hm. simpl in Hm. lia.
    + intros [[m [[ids [H _]] _]]|[-> _]]; [destruct m; discriminate|reflexivity].
  - assert (Shift : forall m e', job_fails X (ids :: ops) (fun i => clust (k + i)%nat) (Datatypes.S m) e' <->
                             job_fails X ops (fun i => clust (Datatypes.S k + i)%nat) m e').
    { intros m e'. unfold job_fails. cbn [nth_error].
      replace (k + Datatypes.S m)%nat with (Datatypes.S k + m)%nat by lia. tauto. }
    assert (ShiftS : forall m, job_succeeds X (ids :: ops) (fun i => clust (k + i)%nat) (Datatypes.S m) <->
                             job_succeeds X ops (fun i => clust (Datatypes.S k + i)%nat) m).
    { intros m. unfold job_succeeds, local_labels. cbn [nth_error].
      replace (k + Datatypes.S m)%nat with (Datatypes.S k + m)%nat by lia. tauto. }
    unfold run_clustering.
    destruct (map_res_rd_cases ids) as [[xs [Ex Fx]]|[Ex Hj]]; rewrite Ex; cbn [bind].
    + destruct (clust k xs) as [lbls|e0] eqn:Ec; cbn [bind].
      * assert (S0 : job_succeeds X (ids :: ops) (fun i => clust (k + i)%nat) 0).
        { exists ids, lbls. split; [reflexivity|]. exists xs. rewrite Nat.add_0_r. auto. }
        specialize (IH (Datatypes.S k) e).
        assert (R : (do ps <- run_jobs X clust (Datatypes.S k) ops after; Ok ((ids, lbls) :: ps)) = Err e <->
                    run_jobs X clust (Datatypes.S k) ops after = Err e).
        { destruct (run_jobs X clust (Datatypes.S k) ops after); cbn [bind]; split; intro H; congruence. }
        rewrite R, IH. split.
        -- intros [[m [H1 H2]]|[H1 H2]].
           ++ left. exists (Datatypes.S m). split; [apply Shift; exact H1|].
              intros [|m'] Hm'; [exact S0|]. apply ShiftS, H2. lia.
           ++ right. split; [exact H1|]. intros [|m] Hm; [exact S0|]. apply ShiftS, H2. simpl in Hm. lia.
        -- intros [[[|m] [H1 H2]]|[H1 H2]].
           ++ exfalso. destruct H1 as [ids' [E' H1]]. injection E' as <-. rewrite Nat.add_0_r in H1.
              destruct H1 as [[_ [j [Hj Hl]]]|[xs' [Fx' Ec']]].
              ** assert (A := Forall2_in_range _ _ _ Fx Hj). lia.
              ** assert (xs = xs') by (eapply (Forall2_det _ ids xs xs'); eauto; simpl; congruence).
                 congruence.
           ++ left. exists m. split; [apply Shift; exact H1|]. intros m' Hm'. apply ShiftS, H2. lia.
           ++ right. split; [exact H1|]. intros m Hm. apply ShiftS, H2. simpl. lia.
      * assert (N0 : ~ job_succeeds X (ids :: ops) (fun i => clust (k + i)%nat) 0).
        { intros [ids' [lbls' [E' [xs' [Fx' Ec']]]]]. injection E' as <-. rewrite Nat.add_0_r in Ec'.
          assert (xs = xs') by (eapply (Forall2_det _ ids xs xs'); eauto; simpl; congruence). congruence. }
        split.
        -- intro H. injection H as ->. left. exists 0%nat. split; [|intros m' Hm'; lia].
           exists ids. split; [reflexivity|]. right. exists xs. rewrite Nat.add_0_r. auto.
        -- intros [[[|m] [H1 H2]]|[H1 H2]].
           ++ destruct H1 as [ids' [E' H1]]. injection E' as <-. rewrite Nat.add_0_r in H1.
              destruct H1 as [[_ [j [Hj Hl]]]|[xs' [Fx' Ec']]].
              ** assert (A := Forall2_in_range _ _ _ Fx Hj). lia.
              ** assert (xs = xs') by (eapply (Forall2_det _ ids xs xs'); eauto; simpl; congruence). congruence.
           ++ exfalso. apply N0, H2. lia.
           ++ exfalso. apply N0, H2. simpl. lia.
    + assert (N0 : ~ job_succeeds X (ids :: ops) (fun i => clust (k + i)%nat) 0).
      { intros [ids' [lbls' [E' [xs' [Fx' Ec']]]]]. injection E' as <-.
        destruct Hj as [j [Hj Hl]]. assert (A := Forall2_in_range _ _ _ Fx' Hj). lia. }
      split.
      * intro H. injection H as <-. left. exists 0%nat. split; [|intros m' Hm'; lia].
        exists ids. split; [reflexivity|]. left. auto.
      * intros [[[|m] [H1 H2]]|[H1 H2]].
        -- destruct H1 as [ids' [E' H1]]. injection E' as <-. rewrite Nat.add_0_r in H1.
           destruct H1 as [[-> _]|[xs' [Fx' Ec']]]; [reflexivity|].
           destruct Hj as [j [Hj Hl]]. assert (A := Forall2_in_range _ _ _ Fx' Hj). lia.
        -- exfalso. apply N0, H2. lia.
        -- exfalso. apply N0, H2. simpl. lia.
Qed.

Lemma labels_fail e :
  mapper_labels X opens clust = Err e <->
  (exists k, job_fails X (yields opens) clust k e /\
     forall k', (k' < k)%nat -> job_succeeds X (yields opens) clust k') \/
  (stops opens = Some e /\
     forall k, (k < length (yields opens))%nat -> job_succeeds X (yields opens) clust k).
Proof.
  rewrite <- (run_jobs_err (yields opens) (stops opens) 0 e).
  change (fun i => clust (0 + i)%nat) with clust. unfold mapper_labels.
  destruct (run_jobs X clust 0 (yields opens) (stops opens)) as [parts|e0] eqn:E; cbn [bind];
    [|split; intro H; injection H as ->; reflexivity].
  split; [|discriminate]. intro H. exfalso.
  assert (A : exists out, mapper_labels X opens clust = Ok out).
  { destruct (run_jobs_ok _ _ _ _ _ _ E) as [Hs [Hl Hn]].
    apply mapper_labels_total; [exact Hs|]. intros k ids Hk.
    destruct (nth_error_ex parts k) as [[ids' lbls] Hp]; [rewrite Hl; eapply nth_error_lt; eauto|].
    destruct (Hn k ids' lbls Hp) as [H1 [xs [H2 H3]]]. rewrite Hk in H1. injection H1 as <-.
    exists lbls. split; [exact Hk|]. exists xs. auto. }
  destruct A as [out A]. unfold mapper_labels in A. rewrite E in A. cbn [bind] in A. congruence.
Qed.

Lemma labels_nonneg out i lbls z :
  mapper_labels X opens clust = Ok out -> nth_error out i = Some lbls -> In z lbls -> 0 <= z.
Proof.
  intros H Hi Hz. destruct (labels_are_clusters X opens clust out H) as [_ [name [[Hn _] HI]]].
  apply (HI i lbls Hi) in Hz. destruct Hz as [k [l [Hc ->]]]. apply Hn. exists i. exact Hc.
Qed.

(** ** Graph *)
Lemma graph_exists out :
  mapper_labels X opens clust = Ok out -> exists g, mapper_graph X opens clust = Ok g.
Proof.
  intro H. unfold mapper_graph. rewrite H. cbn [bind].
  destruct (graph_of_labels_correct out) as [g [E _]]. eauto.
Qed.

Lemma graph_fails e : mapper_graph X opens clust = Err e <-> mapper_labels X opens clust = Err e.
Proof.
  unfold mapper_graph. destruct (mapper_labels X opens clust) as [out|e0]; cbn [bind];
    [|split; intro H; injection H as ->; reflexivity].
  destruct (graph_of_labels_correct out) as [g [E _]]. rewrite E. split; discriminate.
Qed.

Lemma graph_nodes_are_clusters g :
  mapper_graph X opens clust = Ok g -> sets_nodup (yields opens) ->
  well_formed g /\
  exists name, names_clusters X (yields opens) clust name /\
    (forall z, has_node g z <-> exists k l, is_cluster X (yields opens) clust k l /\ z = name k l) /\
    (forall k l, is_cluster X (yields opens) clust k l ->
       exists ids, node_attr g (name k l) (length ids) ids /\ StronglySorted lt ids /\
         forall i, In i ids <-> in_cluster X (yields opens) clust k l i).
Proof.
  intros H Hnd. unfold mapper_graph in H. apply bind_ok in H. destruct H as [out [Ho H]].
  destruct (graph_of_labels_correct out) as [g' [E [W [HN [HT HA]]]]].
  rewrite H in E. injection E as <-. split; [exact W|].
  assert (Hasc := labels_ascending X opens clust out Ho Hnd).
  assert (Hno : Forall (@NoDup Z) out) by (eapply Forall_impl; [|exact Hasc]; apply SSorted_Zlt_NoDup).
  destruct (labels_are_clusters X opens clust out Ho) as [Hlen [name [Hname HI]]].
  assert (Hex : forall k l i, in_cluster X (yields opens) clust k l i ->
                 exists lbls, nth_error out i = Some lbls /\ In (name k l) lbls).
  { intros k l i Hc. destruct (nth_error_ex out i) as [lbls Hl].
    - rewrite Hlen. destruct Hc as [_ [ids [lb [j [[_ [xs [F _]]] [Hj _]]]]]].
      eapply Forall2_in_range; eauto. eapply nth_error_In; eauto.
    - exists lbls. split; [exact Hl|]. apply (HI i lbls Hl). eauto. }
  exists name. split; [exact Hname|]. split.
  - intro z. rewrite HN. split.
    + intros [i [lbls [H1 H2]]]. apply (HI i lbls H1) in H2. destruct H2 as [k [l [Hc ->]]].
      exists k, l. split; [exists i; exact Hc|reflexivity].
    + intros [k [l [[i Hc] ->]]]. destruct (Hex k l i Hc) as [lbls [H1 H2]]. eauto.
  - intros k l Hk. exists (ids_of (pts 0 out) (name k l)). split; [|split].
    + apply HT. split; [|auto]. apply HN. destruct Hk as [i Hc]. destruct (Hex k l i Hc) as [lbls [H1 H2]]. eauto.
    + apply (ids_of_pts_sorted out (name k l) Hno 0).
    + intro i. rewrite in_ids_of, in_pts. split.
      * intros [m [lbls [H1 [H2 ->]]]]. simpl. apply (HI m lbls H1) in H2.
        destruct H2 as [k' [l' [Hc He]]]. destruct Hname as [_ Hinj].
        destruct (Hinj k l k' l' Hk (ex_intro _ m Hc) He) as [-> ->]. exact Hc.
      * intro Hc. destruct (Hex k l i Hc) as [lbls [H1 H2]]. exists i, lbls. auto.
Qed.

Lemma graph_edges_share_points g :
  mapper_graph X opens clust = Ok g -> sets_nodup (yields opens) ->
  forall a b, adjacent g a b <->
    a <> b /\ exists na ia nb ib i, node_attr g a na ia /\ node_attr g b nb ib /\ In i ia /\ In i ib.
Proof.
  intros H Hnd a b. unfold mapper_graph in H. apply bind_ok in H. destruct H as [out [Ho H]].
  destruct (graph_of_labels_correct out) as [g' [E [W [HN [HT HA]]]]].
  rewrite H in E. injection E as <-.
  assert (Hasc := labels_ascending X opens clust out Ho Hnd).
  assert (Hno : forall i lbls, nth_error out i = Some lbls -> NoDup lbls).
  { intros i lbls Hi. apply SSorted_Zlt_NoDup. rewrite Forall_forall in Hasc. apply Hasc. eapply nth_error_In; eauto. }
  rewrite HA. split.
  - intros [i [lbls [H1 H2]]]. apply (together_nodup _ _ _ (Hno i lbls H1)) in H2.
    destruct H2 as [Hne [Ha Hb]]. split; [exact Hne|].
    exists (length (ids_of (pts 0 out) a)), (ids_of (pts 0 out) a), (length (ids_of (pts 0 out) b)), (ids_of (pts 0 out) b), i.
    split; [apply HT; split; [apply HN; eauto|auto]|].
    split; [apply HT; split; [apply HN; eauto|auto]|].
    split; apply in_ids_of, in_pts; exists i, lbls; auto.
  - intros [Hne [na [ia [nb [ib [i [H1 [H2 [H3 H4]]]]]]]]].
    apply HT in H1, H2. destruct H1 as [_ [-> _]], H2 as [_ [-> _]].
    apply in_ids_of, in_pts in H3. apply in_ids_of, in_pts in H4.
    destruct H3 as [m [lbls [H3 [H5 ->]]]], H4 as [m' [lbls' [H4 [H6 Hm]]]]. simpl in Hm. subst m'.
    rewrite H3 in H4. injection H4 as <-. exists m, lbls. split; [exact H3|].
    apply together_nodup; auto. eapply Hno; eauto.
Qed.

Lemma graph_edges_symmetric g :
  mapper_graph X opens clust = Ok g -> forall a b, adjacent g a b -> adjacent g b a /\ has_node g a /\ has_node g b.
Proof.
  intros H a b Hab. unfold mapper_graph in H. apply bind_ok in H. destruct H as [out [Ho H]].
  destruct (graph_of_labels_correct out) as [g' [E [W [HN [HT HA]]]]].
  rewrite H in E. injection E as <-. apply HA in Hab. destruct Hab as [i [lbls [H1 [x [y [H2 [H3 H4]]]]]]].
  split; [apply HA; exists i, lbls; split; [exact H1|]; exists y, x; auto|].
  split; apply HN; exists i, lbls; split; auto; eapply nth_error_In; eauto.
Qed.

(** Clusters of the same open set are never adjacent. *)
Lemma same_set_not_adjacent : sets_nodup (yields opens) ->
  forall k l l' i, in_cluster X (yields opens) clust k l i -> in_cluster X (yields opens) clust k l' i -> l = l'.
Proof.
  intros Hnd k l l' i [_ [ids [lbls [j [[Hk [xs [F C]]] [Hj Hl]]]]]] [_ [ids' [lbls' [j' [[Hk' [xs' [F' C']]] [Hj' Hl']]]]]].
  rewrite Hk in Hk'. injection Hk' as <-.
  assert (xs = xs') by (eapply (Forall2_det _ ids xs xs'); eauto; simpl; congruence). subst xs'.
  rewrite C in C'. injection C' as <-.
  assert (Hn : NoDup ids). { unfold sets_nodup in Hnd. rewrite Forall_forall in Hnd. apply Hnd. eapply nth_error_In; eauto. }
  assert (j = j'). { rewrite NoDup_nth_error in Hn. apply Hn; [eapply nth_error_lt; eauto|congruence]. }
  subst. congruence.
Qed.

(** ** Components *)
Lemma components_of_graph out :
  mapper_labels X opens clust = Ok out ->
  exists g comps, mapper_graph X opens clust = Ok g /\ mapper_connected_components X opens clust = Ok comps /\
    length comps = length X /\
    forall i c, nth_error comps i = Some c ->
      (c = -1 <-> ~ exists z n ids, node_attr g z n ids /\ In i ids) /\
      forall z n ids, node_attr g z n ids -> In i ids ->
        has_node g c /\ connected g z c /\
        forall j c' z' n' ids', nth_error comps j = Some c' -> node_attr g z' n' ids' -> In j ids' ->
          (c = c' <-> connected g z z').
Proof.
  intro Ho. unfold mapper_graph, mapper_connected_components. rewrite Ho. cbn [bind].
  destruct (graph_of_labels_correct out) as [g [E [W [HN [HT HA]]]]].
  destruct (components_correct out g E) as [comps [Ec [Hl HC]]].
  { intros i lbls z. apply (labels_nonneg out); exact Ho. }
  exists g, comps. split; [exact E|]. split; [exact Ec|].
  destruct (labels_are_clusters X opens clust out Ho) as [Hlen _].
  split; [congruence|].
  assert (Row : forall i z n ids, node_attr g z n ids -> In i ids -> exists lbls, nth_error out i = Some lbls /\ In z lbls).
  { intros i z n ids H1 H2. apply HT in H1. destruct H1 as [_ [-> _]]. apply in_ids_of, in_pts in H2.
    destruct H2 as [m [lbls [H2 [H3 ->]]]]. simpl. eauto. }
  intros i c Hc. destruct (nth_error_ex out i) as [lbls Hlb].
  { rewrite <- Hl. eapply nth_error_lt; eauto. }
  destruct (HC i c lbls Hc Hlb) as [C1 [C2 C3]]. split.
  - rewrite C1. split.
    + intros -> [z [n [ids [H1 H2]]]]. destruct (Row i z n ids H1 H2) as [l' [H3 H4]].
      rewrite Hlb in H3. injection H3 as <-. contradiction.
    + intro Hno. destruct lbls as [|z t]; [reflexivity|]. exfalso. apply Hno.
      exists z, (length (ids_of (pts 0 out) z)), (ids_of (pts 0 out) z). split.
      * apply HT. split; [|auto]. apply HN. exists i, (z :: t). split; [exact Hlb|left; reflexivity].
      * apply in_ids_of, in_pts. exists i, (z :: t). split; [exact Hlb|]. split; [left; reflexivity|reflexivity].
  - intros z n ids H1 H2. destruct (Row i z n ids H1 H2) as [l' [H3 H4]].
    rewrite Hlb in H3. injection H3 as <-. destruct (C2 z H4) as [D1 D2].
    split; [exact D1|]. split; [exact D2|].
    intros j c' z' n' ids' Hc' H1' H2'. destruct (Row j z' n' ids' H1' H2') as [l'' [H3' H4']].
    eapply C3; eauto.
Qed.

(** ** Aggregation *)
Lemma aggregate_loop {V} (g : graph) (agg : list S -> res V) nodes : forall acc vals,
  NoDup (map fst (g_nodes g)) ->
  (forall z a, In (z, a) nodes -> In (z, a) (g_nodes g)) ->
  NoDup (map fst nodes) -> (forall z, In z (map fst nodes) -> ~ In z (dkeys acc)) ->
  (for_each (map fst nodes)
    (fun node_id agg_values =>
       do a <- dget_res Z.eqb (g_nodes g) node_id;
       do node_values <- map_res (rd X) (snd a);
       do agg_value <- agg node_values;
       Ok (dset Z.eqb agg_values node_id agg_value)) acc = Ok vals <->
   exists new, vals = acc ++ new /\
     Forall2 (fun node entry => fst entry = fst node /\
        exists xs, Forall2 (fun j x => nth_error X j = Some x) (snd (snd node)) xs /\ agg xs = Ok (snd entry)) nodes new).
Proof.
  induction nodes as [|[z [n ids]] nodes IH]; intros acc vals Hnd Hin Hn Hfresh; cbn [map fst for_each].
  - split.
    + intro H. injection H as <-. exists []. split; [symmetry; apply app_nil_r|constructor].
    + intros [new [-> F]]. inversion F. rewrite app_nil_r. reflexivity.
  - assert (Hz : dget Z.eqb (g_nodes g) z = Some (n, ids)).
    { apply (dget_entry_nodup _ Z_eqb_decides); [exact Hnd|]. apply Hin. left; reflexivity. }
    unfold dget_res at 1. rewrite Hz. cbn [bind snd].
    destruct (map_res (rd X) ids) as [xs|e] eqn:Ex; cbn [bind].
    + destruct (agg xs) as [v|e] eqn:Ea; cbn [bind].
      * inversion Hn as [|z' l' Hz' Hn']; subst.
        assert (Hset : dset Z.eqb acc z v = acc ++ [(z, v)]).
        { assert (Hna : ~ In z (dkeys acc)) by (apply Hfresh; left; reflexivity). clear - Hna.
          induction acc as [|[a b] acc IHa]; [reflexivity|]. simpl in *.
          destruct (Z.eqb_spec z a) as [->|Hne]; [exfalso; apply Hna; left; reflexivity|].
          f_equal. apply IHa. intro H. apply Hna. right; exact H. }
        rewrite Hset. rewrite (IH (acc ++ [(z, v)]) vals Hnd).
        -- assert (Fx : Forall2 (fun j x => nth_error X j = Some x) ids xs).
           { apply map_res_ok in Ex. eapply Forall2_impl; [|exact Ex]. intros a b Hab. apply rd_ok. exact Hab. }
           split.
           ++ intros [new [-> F]]. exists ((z, v) :: new). split; [rewrite <- app_assoc; reflexivity|].
              constructor; [|exact F]. cbn [fst snd]. split; [reflexivity|]. exists xs. auto.
           ++ intros [new [-> F]]. inversion F as [|a b la lb [H1 [xs' [H2 H3]]] HF]; subst.
              destruct b as [z0 v0]. cbn [fst snd] in *. subst z0.
              assert (xs = xs') by (eapply (Forall2_det _ ids xs xs'); eauto; simpl; congruence). subst xs'.
              rewrite Ea in H3. injection H3 as <-. exists lb. split; [rewrite <- app_assoc; reflexivity|exact HF].
        -- intros a b H. apply Hin. right; exact H.
        -- exact Hn'.
        -- intros a Ha. unfold dkeys. rewrite map_app, in_app_iff. simpl. intros [H|[H|[]]].
           ++ apply (Hfresh a); [right; exact Ha|exact H].
           ++ subst a. contradiction.
      * split; [discriminate|]. intros [new [-> F]]. exfalso. inversion F as [|a b la lb [H1 [xs' [H2 H3]]] HF]; subst.
        cbn [fst snd] in *.
        assert (Fx : Forall2 (fun j x => nth_error X j = Some x) ids xs).
        { apply map_res_ok in Ex. eapply Forall2_impl; [|exact Ex]. intros a0 b0 Hab. apply rd_ok. exact Hab. }
        assert (xs = xs') by (eapply (Forall2_det _ ids xs xs'); eauto; simpl; congruence). congruence.
    + split; [discriminate|]. intros [new [-> F]]. exfalso. inversion F as [|a b la lb [H1 [xs' [H2 H3]]] HF]; subst.
      cbn [fst snd] in *.
      assert (Ex' : map_res (rd X) ids = Ok xs').
      { apply map_res_ok. eapply Forall2_impl; [|exact H2]. intros a0 b0 Hab. apply rd_ok. exact Hab. }
      congruence.
Qed.

Lemma aggregate_correct {V} (g : graph) (agg : list S -> res V) vals :
  well_formed g ->
  (aggregate_graph X g agg = Ok vals <->
   Forall2 (fun node entry => fst entry = fst node /\
        exists xs, Forall2 (fun j x => nth_error X j = Some x) (snd (snd node)) xs /\ agg xs = Ok (snd entry))
     (g_nodes g) vals).
Proof.
  intros [W1 _]. unfold aggregate_graph. rewrite (aggregate_loop g agg (g_nodes g) [] vals W1); auto.
  simpl. split; [intros [new [-> F]]; exact F|eauto].
Qed.

Lemma graph_ids_in_range g z n ids i :
  mapper_graph X opens clust = Ok g -> node_attr g z n ids -> In i ids -> (i < length X)%nat.
Proof.
  intros H H1 H2. unfold mapper_graph in H. apply bind_ok in H. destruct H as [out [Ho H]].
  destruct (graph_of_labels_correct out) as [g' [E [W [HN [HT HA]]]]].
  rewrite H in E. injection E as <-. apply HT in H1. destruct H1 as [_ [-> _]]. apply in_ids_of, in_pts in H2.
  destruct H2 as [m [lbls [H2 [H3 ->]]]]. simpl. destruct (labels_are_clusters X opens clust out Ho) as [<- _].
  eapply nth_error_lt; eauto.
Qed.

Lemma graph_well_formed g : mapper_graph X opens clust = Ok g -> well_formed g.
Proof.
  intro H. unfold mapper_graph in H. apply bind_ok in H. destruct H as [out [Ho H]].
  destruct (graph_of_labels_correct out) as [g' [E [W _]]]. congruence.
Qed.

Lemma Forall2_exists {A B} (P : A -> B -> Prop) l : (forall a, In a l -> exists b, P a b) -> exists l', Forall2 P l l'.
Proof.
  induction l as [|a l IH]; intro H; [exists []; constructor|].
  destruct (H a (or_introl eq_refl)) as [b Hb]. destruct IH as [l' Hl]; [intros; apply H; right; auto|]. eauto.
Qed.

Lemma aggregate_total {V} (g : graph) (agg : list S -> res V) :
  mapper_graph X opens clust = Ok g -> (forall xs, exists v, agg xs = Ok v) ->
  exists vals, aggregate_graph X g agg = Ok vals.
Proof.
  intros H Ha. assert (W := graph_well_formed g H).
  destruct (Forall2_exists (fun node entry => fst entry = fst node /\
        exists xs, Forall2 (fun j x => nth_error X j = Some x) (snd (snd node)) xs /\ agg xs = Ok (snd entry)) (g_nodes g))
    as [vals F].
  - intros [z [n ids]] Hin. destruct (Forall2_exists (fun j x => nth_error X j = Some x) ids) as [xs Fx].
    + intros i Hi. apply nth_error_ex. eapply graph_ids_in_range; eauto.
    + destruct (Ha xs) as [v Hv]. exists (z, v). cbn [fst snd]. eauto.
  - exists vals. apply aggregate_correct; assumption.
Qed.
End CP.

(** ** proximity_net *)
Section Net.
Context {S : Type}.
Variable search : S -> res (list nat).

Lemma net_loop_correct xs : forall X i covered,
  (forall m, nth_error xs m = nth_error X (i + m)) -> (i + length xs = length X)%nat ->
  let net := net_loop search i xs covered in
  (exists cs, Forall2 (fun c s => answer_at X search c s /\ s <> []) cs (yields net) /\
     StronglySorted lt cs /\ Forall (fun c => (i <= c)%nat /\ ~ In c covered) cs /\
     forall m m' c s, (m' < m)%nat -> nth_error cs m = Some c -> nth_error (yields net) m' = Some s -> ~ In c s) /\
  (forall e, stops net = Some e -> exists j x, nth_error X j = Some x /\ search x = Err e) /\
  (stops net = None -> forall j x, (i <= j)%nat -> nth_error X j = Some x -> ~ In j covered ->
     exists s, (In s (yields net) /\ In j s) \/ (search x = Ok s /\ ~ In j s)).
Proof.
  induction xs as [|x xs IH]; intros X i covered HX HL; cbn [net_loop].
  - split; [|split].
    + exists []. split; [constructor|]. split; [constructor|]. split; [constructor|].
      intros m m' c s _ H. destruct m; discriminate.
    + simpl. discriminate.
    + simpl in HL. intros _ j y Hj Hy. apply nth_error_lt in Hy. lia.
  - assert (Hx : nth_error X i = Some x) by (rewrite <- (Nat.add_0_r i), <- HX; reflexivity).
    assert (HX' : forall m, nth_error xs m = nth_error X (Datatypes.S i + m)).
    { intro m. replace (Datatypes.S i + m)%nat with (i + Datatypes.S m)%nat by lia. rewrite <- HX. reflexivity. }
    assert (HL' : (Datatypes.S i + length xs = length X)%nat) by (simpl in HL; lia).
    destruct (existsb (Nat.eqb i) covered) eqn:Ec.
    + apply (existsb_in _ nat_eqb_decides) in Ec.
      destruct (IH X (Datatypes.S i) covered HX' HL') as [[cs [F [Hs [Hc Hm]]]] [He Hcov]].
      split; [|split; [exact He|]].
      * exists cs. split; [exact F|]. split; [exact Hs|]. split; [|exact Hm].
        eapply Forall_impl; [|exact Hc]. intros c [H1 H2]. split; [lia|exact H2].
      * intros H0 j y Hj Hy Hnc. destruct (Nat.eq_dec j i) as [->|Hne]; [contradiction|].
        apply Hcov; auto. lia.
    + assert (Hnc : ~ In i covered). { intro H. apply (existsb_in _ nat_eqb_decides) in H. congruence. }
      destruct (search x) as [neigh|e] eqn:Es.
      2:{ cbn [yields stops]. split; [|split].
          - exists []. split; [constructor|]. split; [constructor|]. split; [constructor|].
            intros m m' c s _ H. destruct m; discriminate.
          - intros e' H. injection H as <-. eauto.
          - discriminate. }
      destruct (IH X (Datatypes.S i) (neigh ++ covered) HX' HL') as [[cs [F [Hs [Hc Hm]]]] [He Hcov]].
      set (rest := net_loop search (Datatypes.S i) xs (neigh ++ covered)) in *.
      assert (Hc' : Forall (fun c => (Datatypes.S i <= c)%nat /\ ~ In c neigh /\ ~ In c covered) cs).
      { eapply Forall_impl; [|exact Hc]. intros c [H1 H2]. rewrite in_app_iff in H2. tauto. }
      destruct neigh as [|n0 nt].
      * split; [|split; [exact He|]].
        -- exists cs. split; [exact F|]. split; [exact Hs|]. split; [|exact Hm].
           eapply Forall_impl; [|exact Hc']. intros c [H1 [_ H2]]. split; [lia|exact H2].
        -- intros H0 j y Hj Hy Hnj. destruct (Nat.eq_dec j i) as [->|Hne].
           ++ exists []. right. rewrite Hx in Hy. injection Hy as <-. split; [exact Es|auto].
           ++ apply Hcov; auto. lia.
      * set (neigh := n0 :: nt) in *. cbn [yields stops]. split; [|split; [exact He|]].
        -- exists (i :: cs). split; [constructor; [|exact F]; split; [exists x; auto|discriminate]|].
           split; [|split].
           ++ constructor; [exact Hs|]. eapply Forall_impl; [|exact Hc']. intros c [H1 _]. lia.
           ++ constructor; [split; [lia|exact Hnc]|]. eapply Forall_impl; [|exact Hc']. intros c [H1 [_ H2]]. split; [lia|exact H2].
           ++ intros [|m] [|m'] c s Hlt H1 H2; try lia; simpl in H1, H2.
              ** injection H2 as <-. rewrite Forall_forall in Hc'. apply (Hc' c). eapply nth_error_In; eauto.
              ** apply (Hm m m' c s); auto. lia.
        -- intros H0 j y Hj Hy Hnj. destruct (in_dec Nat.eq_dec j neigh) as [Hin|Hnin].
           ++ exists neigh. left. split; [left; reflexivity|exact Hin].
           ++ destruct (Nat.eq_dec j i) as [->|Hne].
              ** exists neigh. right. rewrite Hx in Hy. injection Hy as <-. auto.
              ** destruct (Hcov H0 j y ltac:(lia) Hy) as [s Hs'].
                 { rewrite in_app_iff. tauto. }
                 exists s. destruct Hs' as [[A B]|A]; [left; split; [right; exact A|exact B]|right; exact A].
Qed.
End Net.

Section NetP.
Context {S : Type}.
Variables (fit : list S -> res (S -> res (list nat))) (X : list S) (search : S -> res (list nat)).
Hypothesis Hfit : fit X = Ok search.

Lemma net_greedy : exists centers, greedy_net X search centers (yields (proximity_net fit X)).
Proof.
  unfold proximity_net. rewrite Hfit.
  destruct (net_loop_correct search X X 0 [] (fun m => eq_refl) eq_refl) as [[cs [F [Hs [_ Hm]]]] _].
  exists cs. split; [exact Hs|]. split; [exact F|exact Hm].
Qed.

Lemma net_covers :
  stops (proximity_net fit X) = None ->
  (forall i x s, nth_error X i = Some x -> search x = Ok s -> In i s) ->
  forall i, (i < length X)%nat -> exists s, In s (yields (proximity_net fit X)) /\ In i s.
Proof.
  unfold proximity_net. rewrite Hfit. intros H0 Hself i Hi.
  destruct (net_loop_correct search X X 0 [] (fun m => eq_refl) eq_refl) as [_ [_ Hcov]].
  destruct (nth_error_ex X i Hi) as [x Hx].
  destruct (Hcov H0 i x ltac:(lia) Hx (fun H => H)) as [s [A|[A B]]]; [eauto|].
  exfalso. apply B. eapply Hself; eauto.
Qed.

Lemma net_stops e :
  stops (proximity_net fit X) = Some e -> exists j x, nth_error X j = Some x /\ search x = Err e.
Proof.
  unfold proximity_net. rewrite Hfit. intros H0.
  destruct (net_loop_correct search X X 0 [] (fun m => eq_refl) eq_refl) as [_ [He _]]. apply He, H0.
Qed.
End NetP.

(** ** Trivial cover and clustering *)
Lemma trivial_cover_sets {S} (X : list S) :
  stops (trivial_cover X) = None /\
  (X = [] -> yields (trivial_cover X) = []) /\
  (X <> [] -> yields (trivial_cover X) = [seq 0 (length X)]).
Proof.
  unfold trivial_cover. destruct X as [|x X]; simpl; repeat split; auto; congruence.
Qed.

Lemma map_res_seq {S} (X : list S) : forall pre, map_res (rd (pre ++ X)) (seq (length pre) (length X)) = Ok X.
Proof.
  induction X as [|x X IH]; intro pre; [reflexivity|]. cbn [length seq map_res].
  assert (E : rd (pre ++ x :: X) (length pre) = Ok x).
  { apply rd_ok. rewrite nth_error_app2 by lia. rewrite Nat.sub_diag. reflexivity. }
  rewrite E. cbn [bind]. specialize (IH (pre ++ [x])). rewrite <- app_assoc in IH. simpl app in IH.
  rewrite app_length in IH. simpl length in IH. rewrite Nat.add_1_r in IH. rewrite IH. reflexivity.
Qed.

Lemma map_zero {A} (l : list A) : map (fun _ => 0) l = repeat 0 (length l).
Proof. induction l; simpl; congruence. Qed.

Lemma trivial_labels {S} (X : list S) :
  mapper_labels X (trivial_cover X) (fun _ xs => trivial_clustering xs) = Ok (map (fun _ => [0]) X).
Proof.
  assert (T : exists out, mapper_labels X (trivial_cover X) (fun _ xs => trivial_clustering xs) = Ok out).
  { apply mapper_labels_total; [apply trivial_cover_sets|]. intros k ids Hk. exists (map (fun _ => 0) ids).
    split; [exact Hk|]. destruct X as [|x X']; [destruct k; discriminate|].
    destruct (trivial_cover_sets (x :: X')) as [_ [_ Y]]. rewrite Y in Hk by congruence.
    destruct k as [|[|k]]; simpl in Hk; try discriminate. injection Hk as <-.
    change (0%nat :: seq 1 (length X')) with (seq 0 (length (x :: X'))).
    exists (x :: X'). split.
    - assert (E := map_res_seq (x :: X') []). simpl app in E. cbn [length] in E. apply map_res_ok in E.
      eapply Forall2_impl; [|exact E]. intros a b Hab. apply rd_ok. exact Hab.
    - unfold trivial_clustering. f_equal. rewrite !map_zero, seq_length. reflexivity. }
  destruct T as [out E]. rewrite E. f_equal.
  destruct (mapper_labels_closed _ _ _ _ E) as [_ [parts [Hp [Hl [Hlen Hn]]]]].
  apply list_nth_ext; [rewrite map_length; exact Hlen|]. intros i Hi. rewrite Hlen in Hi.
  rewrite Hn by exact Hi. destruct (nth_error_ex X i Hi) as [x Hx].
  rewrite (map_nth_error (fun _ => [0]) i X Hx). f_equal.
  destruct X as [|x0 X']; [simpl in Hi; lia|].
  destruct (trivial_cover_sets (x0 :: X')) as [_ [_ Y]]. rewrite Y in Hl, Hp by congruence.
  destruct parts as [|[ids lbls] [|p ps]]; simpl in Hl; try discriminate.
  destruct (proj1 (Hp 0%nat ids lbls) eq_refl) as [H1 [xs [H2 H3]]]. cbn [nth_error] in H1.
  injection H1 as <-. unfold trivial_clustering in H3. injection H3 as <-.
  cbn [all_sel]. rewrite app_nil_r. set (ids := seq 0 (length (x0 :: X'))) in *.
  assert (HI : In i ids) by (apply in_seq; lia).
  assert (ND : NoDup ids) by apply seq_NoDup.
  assert (A := sel_nodup_le1 0 i ids (map (fun _ => 0) xs) ND).
  assert (L2 : length ids = length xs) by (eapply Forall2_length; eauto).
  assert (Hin : In 0 (sel 0 i (combine ids (map (fun _ => 0) xs)))).
  { apply in_sel. exists 0. split; [|split; [lia|reflexivity]]. apply in_combine_nth.
    apply In_nth_error in HI. destruct HI as [j Hj]. exists j. split; [exact Hj|].
    destruct (nth_error_ex xs j) as [y Hy]; [rewrite <- L2; eapply nth_error_lt; eauto|].
    apply (map_nth_error (fun _ : S => 0) j xs Hy). }
  destruct (sel 0 i (combine ids (map (fun _ => 0) xs))) as [|a [|b t]] eqn:Es; simpl in A; try lia; [contradiction|].
  destruct Hin as [->|[]]. exact Es.
Qed.

Lemma add_points_same {S} (X : list S) : forall n ids,
  add_points (Datatypes.S n) (map (fun _ => [0]) X) (mkgraph [(0, (length ids, ids))] [(0, [])]) =
  Ok (mkgraph [(0, ((length ids + length X)%nat, ids ++ seq (Datatypes.S n) (length X)))] [(0, [])]).
Proof.
  induction X as [|x X IH]; intros n ids; cbn [map add_points].
  - simpl. rewrite Nat.add_0_r, app_nil_r. reflexivity.
  - cbn [for_each bind]. unfold add_point. cbn. specialize (IH (Datatypes.S n) (ids ++ [Datatypes.S n])).
    rewrite app_length in IH. simpl length in IH. rewrite Nat.add_1_r in IH.
    rewrite IH. rewrite <- app_assoc. simpl. do 4 f_equal. f_equal. lia.
Qed.

Lemma trivial_graph {S} (X : list S) : X <> [] ->
  mapper_graph X (trivial_cover X) (fun _ xs => trivial_clustering xs) =
  Ok (mkgraph [(0, (length X, seq 0 (length X)))] [(0, [])]).
Proof.
  intro H. unfold mapper_graph. rewrite trivial_labels. cbn [bind]. unfold graph_of_labels.
  destruct X as [|x X]; [congruence|]. cbn [map add_points for_each]. unfold add_point. cbn.
  assert (E := add_points_same X 0 [0%nat]). cbn [length] in E. rewrite E. cbn [bind].
  match goal with |- for_each _ _ ?gg = _ => set (g := gg) end.
  assert (L : forall (l : list S), for_each (map (fun _ => [0]) l) link_all g = Ok g).
  { clear. induction l as [|y l IH]; [reflexivity|]. cbn. exact IH. }
  change (for_each ((fun _ => [0]) x :: map (fun _ => [0]) X) link_all g = Ok g).
  change (for_each (map (fun _ => [0]) (x :: X)) link_all g = Ok g). apply L.
Qed.

Lemma trivial_graph_empty {S} :
  mapper_graph ([] : list S) (trivial_cover ([] : list S)) (fun _ xs => trivial_clustering xs) = Ok empty_graph.
Proof. reflexivity. Qed.

(** ** FailSafeClustering *)
Lemma failsafe_cases {S} (c : list S -> res (list Z)) (X : list S) :
  (forall l, c X = Ok l -> failsafe_clustering (Some c) X = Ok l) /\
  (c X = Err ValueError -> exists l, failsafe_clustering (Some c) X = Ok l /\ length l = length X /\ Forall (eq 0) l) /\
  (forall e, e <> ValueError -> c X = Err e -> failsafe_clustering (Some c) X = Err e) /\
  failsafe_clustering None X = trivial_clustering X.
Proof.
  unfold failsafe_clustering. repeat split.
  - intros l ->. reflexivity.
  - intros ->. eexists. split; [reflexivity|]. split; [apply map_length|].
    apply Forall_forall. intros z Hz. apply in_map_iff in Hz. destruct Hz as [x [<- _]]. reflexivity.
  - intros e He ->. destruct e; try reflexivity. congruence.
Qed.
