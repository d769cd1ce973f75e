(** Proofs about the graph construction from labels. *)
From Verif Require Import Base BaseFacts Dict DictFacts ModelUnionFind ModelCore SpecCore CoreLabels UnionFindProp.
Open Scope Z_scope.

Lemma for_each_map {A B S} (f : A -> B) (body : B -> S -> res S) l st :
  for_each (map f l) body st = for_each l (fun a => body (f a)) st.
Proof.
  revert st; induction l as [|x l IH]; intro st; simpl; [reflexivity|].
  destruct (body (f x) st); simpl; auto.
Qed.

Lemma for_each_flat {A B S} (f : A -> list B) (body : B -> S -> res S) l st :
  for_each (flat_map f l) body st = for_each l (fun a s => for_each (f a) body s) st.
Proof.
  revert st; induction l as [|x l IH]; intro st; simpl; [reflexivity|].
  rewrite for_each_app. destruct (for_each (f x) body st); simpl; auto.
Qed.

Lemma for_each_ext {A S} (b1 b2 : A -> S -> res S) l st :
  (forall a s, b1 a s = b2 a s) -> for_each l b1 st = for_each l b2 st.
Proof.
  intro H. revert st; induction l as [|x l IH]; intro st; simpl; [reflexivity|].
  rewrite H. destruct (b2 x st); simpl; auto.
Qed.

(** All (point, label) incidences in the order they are processed. *)
Fixpoint pts (n : nat) (itm : list (list Z)) : list (nat * Z) :=
  match itm with
  | [] => []
  | lbls :: rest => map (pair n) lbls ++ pts (Datatypes.S n) rest
  end.

Definition add_pair (p : nat * Z) : graph -> res graph := add_point (fst p) (snd p).

Lemma add_points_pts itm : forall n g, add_points n itm g = for_each (pts n itm) add_pair g.
Proof.
  induction itm as [|lbls rest IH]; intros n g; cbn [add_points pts]; [reflexivity|].
  rewrite for_each_app, for_each_map.
  change (for_each lbls (add_point n) g) with (for_each lbls (fun a => add_pair (n, a)) g).
  destruct (for_each lbls (fun a => add_pair (n, a)) g) as [g1|e]; cbn [bind]; auto.
Qed.

Lemma in_pts itm : forall n i z, In (i, z) (pts n itm) <-> exists k lbls, nth_error itm k = Some lbls /\ In z lbls /\ i = (n + k)%nat.
Proof.
  induction itm as [|lbls rest IH]; intros n i z; cbn [pts].
  - split; [simpl; tauto|]. intros [[|k] [l [H _]]]; discriminate.
  - rewrite in_app_iff, in_map_iff, IH. split.
    + intros [[w [H1 H2]]|[k [l [H1 [H2 H3]]]]].
      * injection H1 as <- <-. exists 0%nat, lbls. repeat split; auto.
      * exists (Datatypes.S k), l. repeat split; auto. lia.
    + intros [[|k] [l [H1 [H2 H3]]]]; simpl in H1.
      * injection H1 as <-. left. exists z. split; [f_equal; lia|exact H2].
      * right. exists k, l. repeat split; auto. lia.
Qed.

Definition ids_of (D : list (nat * Z)) (z : Z) : list nat :=
  map fst (filter (fun p => snd p =? z) D).

Lemma ids_of_app D D' z : ids_of (D ++ D') z = ids_of D z ++ ids_of D' z.
Proof. unfold ids_of. rewrite filter_app, map_app. reflexivity. Qed.

Lemma in_ids_of D z i : In i (ids_of D z) <-> In (i, z) D.
Proof.
  unfold ids_of. rewrite in_map_iff. split.
  - intros [[j w] [H1 H2]]. apply filter_In in H2. simpl in *. destruct H2 as [H2 H3].
    apply Z.eqb_eq in H3. subst. exact H2.
  - intro H. exists (i, z). split; [reflexivity|]. apply filter_In. split; [exact H|]. simpl. apply Z.eqb_refl.
Qed.

Record pinv (D : list (nat * Z)) (g : graph) : Prop := {
  pi_nodup : NoDup (dkeys (g_nodes g));
  pi_keys : dkeys (g_adj g) = dkeys (g_nodes g);
  pi_adj : forall a nb, In (a, nb) (g_adj g) -> nb = [];
  pi_get : forall z, dget Z.eqb (g_nodes g) z =
             match ids_of D z with [] => None | ids => Some (length ids, ids) end }.

Lemma in_dset_entry {V} (d : list (Z * V)) k v a w :
  In (a, w) (dset Z.eqb d k v) -> (a = k /\ w = v) \/ In (a, w) d.
Proof.
  induction d as [|[a' b'] d IH]; simpl.
  - intros [H|[]]. injection H as -> ->. auto.
  - destruct (Z.eqb_spec k a') as [->|Hne]; simpl.
    + intros [H|H]; [injection H as -> ->; auto|auto].
    + intros [H|H]; [auto|]. destruct (IH H); auto.
Qed.

Lemma add_pair_inv D g p : pinv D g -> exists g', add_pair p g = Ok g' /\ pinv (D ++ [p]) g'.
Proof.
  intros I. destruct p as [n z]. unfold add_pair. cbn [fst snd]. unfold add_point.
  assert (Hget := pi_get _ _ I z). unfold dmem.
  destruct (dget Z.eqb (g_nodes g) z) as [[sz ids]|] eqn:E.
  - unfold dget_res. rewrite E. cbn [bind].
    assert (Hids : ids_of D z = ids /\ sz = length ids).
    { destruct (ids_of D z) as [|x t] eqn:F; [discriminate|]. injection Hget as -> ->. auto. }
    destruct Hids as [Hi ->].
    eexists. split; [reflexivity|]. constructor; cbn [g_nodes g_adj].
    + apply dkeys_dset_nodup; [exact Z_eqb_decides|apply pi_nodup with (1 := I)].
    + rewrite dkeys_dset. unfold dmem. rewrite E. apply (pi_keys _ _ I).
    + apply (pi_adj _ _ I).
    + intro w. rewrite (dget_dset _ Z_eqb_decides), ids_of_app. unfold ids_of at 2. cbn [filter map snd fst].
      rewrite Z.eqb_sym. destruct (Z.eqb_spec z w) as [<-|Hne]; cbn [map fst].
      * rewrite Hi. destruct (ids ++ [n]) as [|x t] eqn:F; [destruct ids; discriminate|].
        rewrite <- F. rewrite app_length, Nat.add_1_r. reflexivity.
      * rewrite app_nil_r. apply (pi_get _ _ I).
  - assert (Hi : ids_of D z = []).
    { destruct (ids_of D z); [reflexivity|discriminate]. }
    unfold dget_res. cbn [g_nodes g_adj]. rewrite (dget_dset_same _ Z_eqb_decides). cbn [bind].
    eexists. split; [reflexivity|]. constructor; cbn [g_nodes g_adj].
    + apply dkeys_dset_nodup; [exact Z_eqb_decides|].
      apply dkeys_dset_nodup; [exact Z_eqb_decides|apply pi_nodup with (1 := I)].
    + rewrite dkeys_dset. rewrite (dkeys_dset _ (dset Z.eqb (g_nodes g) z (0%nat, []))).
      unfold dmem at 2. rewrite (dget_dset_same _ Z_eqb_decides).
      rewrite dkeys_dset. unfold dmem. rewrite E.
      assert (E2 : dget Z.eqb (g_adj g) z = None).
      { apply (dget_none _ Z_eqb_decides). rewrite (pi_keys _ _ I). apply (dget_none _ Z_eqb_decides). exact E. }
      rewrite E2, (pi_keys _ _ I). reflexivity.
    + intros a nb H. apply in_dset_entry in H. destruct H as [[_ H]|H]; [exact H|apply (pi_adj _ _ I _ _ H)].
    + intro w. rewrite !(dget_dset _ Z_eqb_decides), ids_of_app. unfold ids_of at 2. cbn [filter map snd fst].
      rewrite (Z.eqb_sym w z). destruct (Z.eqb_spec z w) as [<-|Hne]; cbn [map fst].
      * rewrite Hi. reflexivity.
      * rewrite app_nil_r. apply (pi_get _ _ I).
Qed.

Lemma add_pairs_inv ps : forall D g, pinv D g -> exists g', for_each ps add_pair g = Ok g' /\ pinv (D ++ ps) g'.
Proof.
  induction ps as [|p ps IH]; intros D g I; cbn [for_each].
  - exists g. rewrite app_nil_r. auto.
  - destruct (add_pair_inv D g p I) as [g1 [E I1]]. rewrite E. cbn [bind].
    destruct (IH _ _ I1) as [g' [E' I']]. exists g'. split; [exact E'|]. rewrite <- app_assoc in I'. exact I'.
Qed.

Lemma pinv_empty : pinv [] empty_graph.
Proof.
  constructor; simpl; auto; try constructor; try contradiction.
Qed.

(** Edges. *)
Fixpoint upairs (lbls : list Z) : list (Z * Z) :=
  match lbls with
  | [] => []
  | s :: rest => map (pair s) rest ++ upairs rest
  end.
Definition link_pair (p : Z * Z) : graph -> res graph := link (fst p) (snd p).

Lemma link_all_upairs lbls : forall g, link_all lbls g = for_each (upairs lbls) link_pair g.
Proof.
  induction lbls as [|s rest IH]; intro g; cbn [link_all upairs]; [reflexivity|].
  rewrite for_each_app, for_each_map.
  change (for_each rest (link s) g) with (for_each rest (fun a => link_pair (s, a)) g).
  destruct (for_each rest (fun a => link_pair (s, a)) g) as [g1|e]; cbn [bind]; auto.
Qed.

Record linv (nodes : list (Z * (nat * list nat))) (E : list (Z * Z)) (g : graph) : Prop := {
  li_nodes : g_nodes g = nodes;
  li_keys : dkeys (g_adj g) = dkeys nodes;
  li_nodup : forall a nb, dget Z.eqb (g_adj g) a = Some nb -> NoDup nb;
  li_adj : forall a b nb, dget Z.eqb (g_adj g) a = Some nb -> (In b nb <-> In (a, b) E \/ In (b, a) E) }.

Lemma add_nodup (l : list Z) x : NoDup l ->
  NoDup (if existsb (Z.eqb x) l then l else l ++ [x]).
Proof.
  intro H. destruct (existsb (Z.eqb x) l) eqn:E; [exact H|].
  assert (Hx : ~ In x l). { intro Hx. apply (existsb_in _ Z_eqb_decides) in Hx. congruence. }
  apply (Permutation_NoDup (Permutation_cons_append l x)). constructor; assumption.
Qed.

Lemma add_in (l : list Z) x y : In y (if existsb (Z.eqb x) l then l else l ++ [x]) <-> y = x \/ In y l.
Proof.
  destruct (existsb (Z.eqb x) l) eqn:E.
  - apply (existsb_in _ Z_eqb_decides) in E. split; auto. intros [->|H]; auto.
  - rewrite in_app_iff. simpl. intuition.
Qed.

Lemma dget_of_key {V} (d : list (Z * V)) k : In k (dkeys d) -> exists v, dget Z.eqb d k = Some v.
Proof. intro H. apply (dget_in _ Z_eqb_decides) in H. exact H. Qed.

Lemma dkeys_dset_same {V} (d : list (Z * V)) k v : In k (dkeys d) -> dkeys (dset Z.eqb d k v) = dkeys d.
Proof.
  intro H. rewrite dkeys_dset. unfold dmem. destruct (dget_of_key d k H) as [w ->]. reflexivity.
Qed.

Lemma link_pair_inv nodes E g p :
  linv nodes E g -> In (fst p) (dkeys nodes) -> In (snd p) (dkeys nodes) ->
  exists g', link_pair p g = Ok g' /\ linv nodes (E ++ [p]) g'.
Proof.
  intros I H1 H2. destruct p as [u v]. unfold link_pair, link. cbn [fst snd] in *.
  assert (K := li_keys _ _ _ I).
  destruct (dget_of_key (g_adj g) u) as [au Eu]; [rewrite K; exact H1|].
  unfold dget_res. rewrite Eu. cbn [bind].
  destruct (existsb (Z.eqb v) au) eqn:Ex.
  - eexists. split; [reflexivity|]. apply (existsb_in _ Z_eqb_decides) in Ex.
    apply (li_adj _ _ _ I _ _ _ Eu) in Ex.
    constructor; try apply I. intros a b nb Ha.
    rewrite (li_adj _ _ _ I a b nb Ha), !in_app_iff. simpl.
    split; [tauto|]. intros [[H|[H|[]]]|[H|[H|[]]]]; auto; injection H as -> ->; tauto.
  - unfold add_edge, dget_res. rewrite Eu. cbn [bind]. rewrite Ex.
    set (adj1 := dset Z.eqb (g_adj g) u (au ++ [v])).
    assert (K1 : dkeys adj1 = dkeys nodes).
    { unfold adj1. rewrite dkeys_dset_same by (rewrite K; exact H1). exact K. }
    destruct (dget_of_key adj1 v) as [av Ev]; [rewrite K1; exact H2|].
    rewrite Ev. cbn [bind]. eexists. split; [reflexivity|].
    assert (Au : forall y, In y (au ++ [v]) <-> y = v \/ In y au) by (intro y; rewrite in_app_iff; simpl; intuition).
    assert (Nu : NoDup (au ++ [v])).
    { assert (N := add_nodup au v (li_nodup _ _ _ I _ _ Eu)). rewrite Ex in N. exact N. }
    constructor; cbn [g_nodes g_adj].
    + apply I.
    + rewrite dkeys_dset_same by (rewrite K1; exact H2). exact K1.
    + intros a nb. rewrite (dget_dset _ Z_eqb_decides). destruct (Z.eqb_spec a v) as [->|Hav].
      * intro H. injection H as <-. apply add_nodup. unfold adj1 in Ev.
        rewrite (dget_dset _ Z_eqb_decides) in Ev. destruct (Z.eqb v u); [injection Ev as <-; exact Nu|].
        apply (li_nodup _ _ _ I _ _ Ev).
      * unfold adj1. rewrite (dget_dset _ Z_eqb_decides). destruct (Z.eqb a u).
        -- intro H; injection H as <-. exact Nu.
        -- apply (li_nodup _ _ _ I).
    + assert (A1 : forall a nb, dget Z.eqb adj1 a = Some nb -> forall b,
              In b nb <-> In (a, b) E \/ In (b, a) E \/ (a = u /\ b = v)).
      { intros a nb Ha b. unfold adj1 in Ha. rewrite (dget_dset _ Z_eqb_decides) in Ha.
        destruct (Z.eqb_spec a u) as [->|Hau].
        - injection Ha as <-. rewrite Au, (li_adj _ _ _ I _ b _ Eu). tauto.
        - rewrite (li_adj _ _ _ I _ b _ Ha). tauto. }
      intros a b nb. rewrite (dget_dset _ Z_eqb_decides). rewrite !in_app_iff. simpl.
      destruct (Z.eqb_spec a v) as [->|Hav].
      * intro H; injection H as <-. rewrite add_in, (A1 _ _ Ev b).
        split.
        -- intros [->|[H|[H|[-> ->]]]]; auto.
        -- intros [[H|[H|[]]]|[H|[H|[]]]]; auto; inversion H; subst; auto.
      * intro H. rewrite (A1 _ _ H b). split.
        -- intros [G|[G|[-> ->]]]; auto.
        -- intros [[G|[G|[]]]|[G|[G|[]]]]; auto.
           ++ injection G as -> ->; auto.
           ++ injection G as <- <-; congruence.
Qed.

Lemma link_pairs_inv nodes ps : forall E g,
  linv nodes E g -> (forall p, In p ps -> In (fst p) (dkeys nodes) /\ In (snd p) (dkeys nodes)) ->
  exists g', for_each ps link_pair g = Ok g' /\ linv nodes (E ++ ps) g'.
Proof.
  induction ps as [|p ps IH]; intros E g I H; cbn [for_each].
  - exists g. rewrite app_nil_r. auto.
  - destruct (H p (or_introl eq_refl)) as [H1 H2].
    destruct (link_pair_inv _ _ _ _ I H1 H2) as [g1 [E1 I1]]. rewrite E1. cbn [bind].
    destruct (IH _ _ I1) as [g' [E' I']]; [intros q Hq; apply H; right; exact Hq|].
    exists g'. split; [exact E'|]. rewrite <- app_assoc in I'. exact I'.
Qed.

Lemma in_upairs lbls a b :
  In (a, b) (upairs lbls) <-> exists i j, (i < j)%nat /\ nth_error lbls i = Some a /\ nth_error lbls j = Some b.
Proof.
  induction lbls as [|s rest IH]; cbn [upairs].
  - split; [simpl; tauto|]. intros [[|i] [j [_ [H _]]]]; discriminate.
  - rewrite in_app_iff, in_map_iff, IH. split.
    + intros [[w [H1 H2]]|[i [j [H1 [H2 H3]]]]].
      * injection H1 as <- <-. apply In_nth_error in H2. destruct H2 as [j Hj].
        exists 0%nat, (Datatypes.S j). repeat split; auto. lia.
      * exists (Datatypes.S i), (Datatypes.S j). repeat split; auto. lia.
    + intros [[|i] [[|j] [H1 [H2 H3]]]]; try lia; simpl in H2, H3.
      * injection H2 as <-. left. exists b. split; [reflexivity|]. eapply nth_error_In; eauto.
      * right. exists i, j. repeat split; auto. lia.
Qed.

(** Two occurrences of labels in one list. *)
Definition together (lbls : list Z) (a b : Z) : Prop :=
  exists i j, i <> j /\ nth_error lbls i = Some a /\ nth_error lbls j = Some b.

Lemma together_nodup lbls a b : NoDup lbls -> together lbls a b <-> a <> b /\ In a lbls /\ In b lbls.
Proof.
  intro Hn. split.
  - intros [i [j [H1 [H2 H3]]]]. split; [|split; eapply nth_error_In; eauto].
    intros ->. apply H1. rewrite NoDup_nth_error in Hn. apply Hn; [eapply nth_error_lt; eauto|congruence].
  - intros [H1 [H2 H3]]. apply In_nth_error in H2, H3. destruct H2 as [i Hi], H3 as [j Hj].
    exists i, j. split; [|auto]. intros ->. congruence.
Qed.

Lemma upairs_together lbls a b :
  (In (a, b) (upairs lbls) \/ In (b, a) (upairs lbls)) <-> together lbls a b.
Proof.
  rewrite !in_upairs. unfold together. split.
  - intros [[i [j [H1 [H2 H3]]]]|[i [j [H1 [H2 H3]]]]].
    + exists i, j. repeat split; auto. lia.
    + exists j, i. repeat split; auto. lia.
  - intros [i [j [H1 [H2 H3]]]]. destruct (Nat.lt_trichotomy i j) as [H|[H|H]]; [left|contradiction|right].
    + exists i, j. auto.
    + exists j, i. auto.
Qed.

(** Complete description of the graph built from labels. *)
Lemma graph_of_labels_correct itm :
  exists g, graph_of_labels itm = Ok g /\ well_formed g /\
    (forall z, has_node g z <-> exists i lbls, nth_error itm i = Some lbls /\ In z lbls) /\
    (forall z size ids, node_attr g z size ids <->
        has_node g z /\ ids = ids_of (pts 0 itm) z /\ size = length ids) /\
    (forall a b, adjacent g a b <-> exists i lbls, nth_error itm i = Some lbls /\ together lbls a b).
Proof.
  unfold graph_of_labels. rewrite add_points_pts.
  destruct (add_pairs_inv (pts 0 itm) [] empty_graph pinv_empty) as [g0 [E0 I0]].
  rewrite E0. cbn [bind]. simpl app in I0.
  rewrite (for_each_ext _ (fun l g => for_each (upairs l) link_pair g)) by (intros; apply link_all_upairs).
  rewrite <- for_each_flat.
  assert (Hkeys : forall z, In z (dkeys (g_nodes g0)) <-> exists i lbls, nth_error itm i = Some lbls /\ In z lbls).
  { intro z. rewrite <- (dget_in _ Z_eqb_decides). rewrite (pi_get _ _ I0). split.
    - intros [v Hv]. destruct (ids_of (pts 0 itm) z) as [|i t] eqn:F; [discriminate|].
      assert (Hi : In i (ids_of (pts 0 itm) z)) by (rewrite F; left; reflexivity).
      apply in_ids_of, in_pts in Hi. destruct Hi as [k [l [H1 [H2 _]]]]. eauto.
    - intros [i [l [H1 H2]]].
      assert (Hi : In i (ids_of (pts 0 itm) z)) by (apply in_ids_of, in_pts; exists i, l; auto).
      destruct (ids_of (pts 0 itm) z); [contradiction|]. eauto. }
  assert (L0 : linv (g_nodes g0) [] g0).
  { constructor; auto.
    - apply (pi_keys _ _ I0).
    - intros a nb H. apply (dget_entry _ Z_eqb_decides) in H. apply (pi_adj _ _ I0) in H. subst. constructor.
    - intros a b nb H. apply (dget_entry _ Z_eqb_decides) in H. apply (pi_adj _ _ I0) in H. subst.
      simpl. tauto. }
  destruct (link_pairs_inv (g_nodes g0) (flat_map upairs itm) [] g0 L0) as [g [E I]].
  { intros [a b] Hp. apply in_flat_map in Hp. destruct Hp as [lbls [H1 H2]].
    apply In_nth_error in H1. destruct H1 as [k Hk]. apply in_upairs in H2.
    destruct H2 as [i [j [_ [H2 H3]]]]. cbn [fst snd].
    split; apply Hkeys; exists k, lbls; split; auto; eapply nth_error_In; eauto. }
  simpl app in I. exists g. split; [exact E|].
  assert (HN : g_nodes g = g_nodes g0) by apply I.
  assert (ND : NoDup (dkeys (g_adj g))) by (rewrite (li_keys _ _ _ I); apply (pi_nodup _ _ I0)).
  split; [|split; [|split]].
  - unfold well_formed. rewrite HN. split; [apply (pi_nodup _ _ I0)|]. split; [apply (li_keys _ _ _ I)|].
    intros a nb H. apply (dget_entry_nodup _ Z_eqb_decides) in H; [|exact ND]. apply (li_nodup _ _ _ I _ _ H).
  - intro z. unfold has_node. rewrite HN. apply Hkeys.
  - intros z size ids. unfold node_attr, has_node. rewrite HN. fold (dkeys (g_nodes g0)). split.
    + intro H. split; [apply (in_map fst) in H; exact H|].
      apply (dget_entry_nodup _ Z_eqb_decides) in H; [|apply (pi_nodup _ _ I0)].
      rewrite (pi_get _ _ I0) in H. destruct (ids_of (pts 0 itm) z); [discriminate|].
      injection H as <- <-. auto.
    + intros [H [-> ->]]. apply (dget_entry _ Z_eqb_decides). rewrite (pi_get _ _ I0).
      apply dget_of_key in H. destruct H as [v Hv]. rewrite (pi_get _ _ I0) in Hv.
      destruct (ids_of (pts 0 itm) z); [discriminate|reflexivity].
  - intros a b. unfold adjacent. split.
    + intros [nb [H1 H2]]. apply (dget_entry_nodup _ Z_eqb_decides) in H1; [|exact ND].
      apply (li_adj _ _ _ I _ _ _ H1) in H2. rewrite !in_flat_map in H2.
      destruct H2 as [[l [H2 H3]]|[l [H2 H3]]]; apply In_nth_error in H2; destruct H2 as [i Hi];
        exists i, l; split; auto; apply upairs_together; auto.
    + intros [i [l [H1 H2]]].
      assert (Ha : In a (dkeys (g_adj g))).
      { rewrite (li_keys _ _ _ I). apply Hkeys. exists i, l. split; [exact H1|].
        destruct H2 as [x [y [_ [H2 _]]]]. eapply nth_error_In; eauto. }
      apply dget_of_key in Ha. destruct Ha as [nb Hnb]. exists nb.
      split; [apply (dget_entry _ Z_eqb_decides); exact Hnb|].
      apply (li_adj _ _ _ I _ _ _ Hnb). apply nth_error_In in H1. rewrite !in_flat_map.
      apply upairs_together in H2. destruct H2; [left|right]; exists l; auto.
Qed.

(** With duplicate-free label lists, the ids of a node are the points carrying
    its label, in ascending order. *)
Lemma ids_of_pts_sorted itm z :
  Forall (@NoDup Z) itm ->
  forall n, StronglySorted lt (ids_of (pts n itm) z) /\
    (forall i, In i (ids_of (pts n itm) z) -> (n <= i)%nat).
Proof.
  intro HN. induction HN as [|lbls rest Hl HN IH]; intro n; cbn [pts].
  - split; [constructor|simpl; tauto].
  - rewrite ids_of_app. destruct (IH (Datatypes.S n)) as [S1 S2].
    assert (A : ids_of (map (pair n) lbls) z = [] \/ ids_of (map (pair n) lbls) z = [n]).
    { clear - Hl. induction Hl as [|a l Ha Hl IHl]; [left; reflexivity|].
      unfold ids_of. cbn [map filter snd]. destruct (Z.eqb_spec a z) as [->|Hne]; [|exact IHl].
      right. cbn [map fst]. f_equal.
      change (ids_of (map (pair n) l) z = []). destruct IHl as [E|E]; [exact E|].
      exfalso. apply Ha. assert (Hin : In n (ids_of (map (pair n) l) z)) by (rewrite E; left; reflexivity).
      apply in_ids_of, in_map_iff in Hin. destruct Hin as [w [H1 H2]]. injection H1 as <-. exact H2. }
    destruct A as [-> | ->]; simpl.
    + split; [exact S1|]. intros i Hi. specialize (S2 i Hi). lia.
    + split.
      * constructor; [exact S1|]. apply Forall_forall. intros i Hi. specialize (S2 i Hi). lia.
      * intros i [<-|Hi]; [lia|]. specialize (S2 i Hi). lia.
Qed.
