(** Maps between Mapper graphs, and the graph of the trivial clustering. *)
From Coq Require Import Sorted Relations Permutation.
From Verif Require Import Base BaseFacts ModelCore SpecCore SpecGaps SpecNerve CoreLabels CoreGraph CoreProp OverlapFacts GapsFacts PackingFacts.
Open Scope Z_scope.

(** *** The graph in terms of its clusters *)
Section Describe.
Context {S : Type} (X : list S) (opens : gen (list nat)) (clust : clustering S).
Notation cl := (in_cluster X (yields opens) clust).

Definition described (name : nat -> Z -> Z) (g : graph) : Prop :=
  names_clusters X (yields opens) clust name /\
  (forall z, has_node g z <-> exists k l, is_cluster X (yields opens) clust k l /\ z = name k l) /\
  (forall k l, is_cluster X (yields opens) clust k l -> exists ids, node_attr g (name k l) (length ids) ids /\ StronglySorted lt ids /\
     forall i, In i ids <-> cl k l i) /\
  (forall k l n ids, is_cluster X (yields opens) clust k l -> node_attr g (name k l) n ids -> n = length ids /\ forall i, In i ids <-> cl k l i) /\
  forall a b, adjacent g a b <-> a <> b /\ exists k l k' l' i, cl k l i /\ cl k' l' i /\ a = name k l /\ b = name k' l'.

Lemma attr_unique g z v w : NoDup (map fst (g_nodes g)) -> In (z, v) (g_nodes g) -> In (z, w) (g_nodes g) -> v = w.
Proof.
  intros Nd A B. induction (g_nodes g) as [|[y u] t IH]; [destruct A|].
  simpl in Nd. inversion Nd as [|? ? N1 N2]; subst. destruct A as [A|A], B as [B|B].
  - congruence.
  - injection A as -> ->. exfalso. apply N1. apply in_map_iff. eexists; split; [|exact B]. reflexivity.
  - injection B as -> ->. exfalso. apply N1. apply in_map_iff. eexists; split; [|exact A]. reflexivity.
  - auto.
Qed.

Lemma describe g name : mapper_graph X opens clust = Ok g -> sets_nodup (yields opens) ->
  names_clusters X (yields opens) clust name ->
  (forall z, has_node g z <-> exists k l, is_cluster X (yields opens) clust k l /\ z = name k l) ->
  (forall k l, is_cluster X (yields opens) clust k l -> exists ids, node_attr g (name k l) (length ids) ids /\ StronglySorted lt ids /\
     forall i, In i ids <-> cl k l i) -> well_formed g -> described name g.
Proof.
  intros H N Nm Hn Ha W. split; [exact Nm|]. split; [exact Hn|]. split; [exact Ha|].
  assert (At : forall k l n ids, is_cluster X (yields opens) clust k l -> node_attr g (name k l) n ids -> n = length ids /\ forall i, In i ids <-> cl k l i).
  { intros k l n ids C A. destruct (Ha k l C) as [ids' [A' [_ Q]]].
    pose proof (attr_unique g (name k l) (n, ids) (length ids', ids') (proj1 W) A A') as E. injection E as -> ->. split; [reflexivity|exact Q]. }
  split; [exact At|]. intros a b. rewrite (graph_edges_share_points X opens clust g H N a b). split.
  - intros [D [na [ia [nb [ib [i [A1 [B1 [Ia Ib]]]]]]]]]. split; [exact D|].
    assert (Node : forall z n ids, node_attr g z n ids -> In i ids -> exists k l, cl k l i /\ z = name k l).
    { intros z n ids Az I. assert (Hz : has_node g z) by (apply in_map_iff; exists (z, (n, ids)); split; [reflexivity|exact Az]).
      apply Hn in Hz. destruct Hz as [k [l [C ->]]]. exists k, l. split; [|reflexivity]. apply (At k l n ids C Az). exact I. }
    destruct (Node a na ia A1 Ia) as [k [l [C1 ->]]]. destruct (Node b nb ib B1 Ib) as [k' [l' [C2 ->]]].
    exists k, l, k', l', i. auto.
  - intros [D [k [l [k' [l' [i [C1 [C2 [-> ->]]]]]]]]]. split; [exact D|].
    destruct (Ha k l (ex_intro _ i C1)) as [ia [A1 [_ Q1]]]. destruct (Ha k' l' (ex_intro _ i C2)) as [ib [A2 [_ Q2]]].
    exists (length ia), ia, (length ib), ib, i. split; [exact A1|]. split; [exact A2|]. split; [apply Q1, C1|apply Q2, C2].
Qed.
Lemma graph_described g : mapper_graph X opens clust = Ok g -> sets_nodup (yields opens) -> exists name, described name g.
Proof.
  intros H N. destruct (graph_nodes_are_clusters X opens clust g H N) as [W [name [Nm [Hn Ha]]]]. exists name. apply describe; auto.
Qed.
Lemma described_node name g z n ids : described name g -> node_attr g z n ids ->
  exists k l, is_cluster X (yields opens) clust k l /\ z = name k l /\ n = length ids /\ forall i, In i ids <-> cl k l i.
Proof.
  intros [_ [Hn [_ [At _]]]] A. assert (Hz : has_node g z) by (apply in_map_iff; exists (z, (n, ids)); split; [reflexivity|exact A]).
  apply Hn in Hz. destruct Hz as [k [l [C ->]]]. exists k, l. split; [exact C|]. split; [reflexivity|]. exact (At k l n ids C A).
Qed.
End Describe.

(** Finite choice of a function on numbers. *)
Lemma choose_map (P : Z -> Z -> Prop) (l : list Z) : (forall z, In z l -> exists w, P z w) -> exists f, forall z, In z l -> P z (f z).
Proof.
  induction l as [|a l IH]; intro H; [exists (fun z => z); intros z []|].
  destruct IH as [f Hf]; [intros z I; apply H; right; exact I|]. destruct (H a (or_introl eq_refl)) as [w Hw].
  exists (fun z => if Z.eq_dec z a then w else f z). intros z I. destruct (Z.eq_dec z a) as [->|D]; [exact Hw|].
  destruct I as [->|I]; [contradiction|apply Hf, I].
Qed.

(** *** Refinements give maps *)
Section Map.
Context {S : Type} (X : list S) (opens opens' : gen (list nat)) (clust clust' : clustering S).
Hypothesis N : sets_nodup (yields opens).
Hypothesis N' : sets_nodup (yields opens').

Lemma refines_map g g' : refines X (yields opens) clust (yields opens') clust' ->
  mapper_graph X opens clust = Ok g -> mapper_graph X opens' clust' = Ok g' ->
  exists f, maps_nodes f g g' /\ forall a b, adjacent g a b -> f a = f b \/ adjacent g' (f a) (f b).
Proof.
  intros R H H'. destruct (graph_described X opens clust g H N) as [name D]. destruct (graph_described X opens' clust' g' H' N') as [name' D'].
  pose proof D as [[_ Nm] [Hn [Ha [At Ad]]]]. pose proof D' as [_ [Hn' [Ha' [At' Ad']]]].
  destruct (choose_map (fun z w => forall k l, is_cluster X (yields opens) clust k l -> z = name k l ->
    exists k' l', w = name' k' l' /\ forall i, in_cluster X (yields opens) clust k l i -> in_cluster X (yields opens') clust' k' l' i) (map fst (g_nodes g))) as [f Hf].
  { intros z I. apply Hn in I. destruct I as [k [l [C ->]]]. destruct (R k l C) as [k' [l' Q]]. exists (name' k' l').
    intros k1 l1 C1 E. destruct (Nm k l k1 l1 C C1 E) as [<- <-]. exists k', l'. split; [reflexivity|exact Q]. }
  assert (Hf' : forall k l, is_cluster X (yields opens) clust k l ->
    exists k' l', f (name k l) = name' k' l' /\ forall i, in_cluster X (yields opens) clust k l i -> in_cluster X (yields opens') clust' k' l' i).
  { intros k l C. apply (Hf (name k l)); [apply Hn; exists k, l; auto|exact C|reflexivity]. }
  clear Hf. exists f. split.
  - intros z n ids A. destruct (described_node X opens clust name g z n ids D A) as [k [l [C [-> [_ Q]]]]].
    destruct (Hf' k l C) as [k' [l' [-> R']]]. destruct C as [i Ci]. destruct (Ha' k' l' (ex_intro _ i (R' i Ci))) as [ids' [A' [_ Q']]].
    exists (length ids'), ids'. split; [exact A'|]. intros j Ij. apply Q', R', Q, Ij.
  - intros a b E. apply Ad in E. destruct E as [_ [k [l [k1 [l1 [i [C1 [C2 [-> ->]]]]]]]]].
    destruct (Hf' k l (ex_intro _ i C1)) as [k' [l' [Ea Ra]]]. destruct (Hf' k1 l1 (ex_intro _ i C2)) as [k1' [l1' [Eb Rb]]].
    rewrite Ea, Eb. destruct (Z.eq_dec (name' k' l') (name' k1' l1')) as [Q|Q]; [left; exact Q|right].
    apply Ad'. split; [exact Q|]. exists k', l', k1', l1', i. auto.
Qed.

Lemma refines_components comps comps' : refines X (yields opens) clust (yields opens') clust' ->
  mapper_connected_components X opens clust = Ok comps -> mapper_connected_components X opens' clust' = Ok comps' ->
  splits_components comps comps'.
Proof.
  intros R H H' i j c c' d' Hi Hj Nc Hi' Hj'.
  destruct (components_chain X opens clust comps H) as [_ Q]. destruct (components_chain X opens' clust' comps' H') as [_ Q'].
  destruct (Q i c Hi) as [_ Qi]. destruct (Q' i c' Hi') as [_ Qi'].
  assert (T : clos_trans nat (share_cluster X (yields opens) clust) i j) by (apply (Qi j c Hj); auto).
  apply (Qi' j d' Hj'). clear - R T. induction T as [i j [k [l [A B]]]|i m j _ IH1 _ IH2]; [|eapply t_trans; eassumption].
  apply t_step. destruct (R k l (ex_intro _ i A)) as [k' [l' P]]. exists k', l'. auto.
Qed.
End Map.

(** *** One cover, two clusterings *)
Section Finer.
Context {S : Type} (X : list S) (opens : gen (list nat)) (clust clust' : clustering S).
Hypothesis N : sets_nodup (yields opens).
Hypothesis F : finer X (yields opens) clust clust'.

Lemma finer_inside k l : is_cluster X (yields opens) clust k l ->
  exists l', forall i, in_cluster X (yields opens) clust k l i -> in_cluster X (yields opens) clust' k l' i.
Proof.
  intros [i Ci]. destruct (F k l i i Ci Ci) as [l' [C' _]]. exists l'. intros j Cj.
  destruct (F k l i j Ci Cj) as [l2 [A B]]. rewrite (same_set_not_adjacent X opens clust' N k l' l2 i C' A). exact B.
Qed.
Lemma finer_refines : refines X (yields opens) clust (yields opens) clust'.
Proof. intros k l C. destruct (finer_inside k l C) as [l' H]. exists k, l'. exact H. Qed.

Lemma finer_map g g' : mapper_graph X opens clust = Ok g -> mapper_graph X opens clust' = Ok g' ->
  exists f, maps_nodes f g g' /\ (forall a b, adjacent g a b -> adjacent g' (f a) (f b)) /\
    (no_more_noise X (yields opens) clust clust' ->
      (forall z n ids i, node_attr g' z n ids -> In i ids -> exists z0 n0 ids0, node_attr g z0 n0 ids0 /\ In i ids0 /\ f z0 = z) /\
      forall a b, adjacent g' a b -> exists a0 b0, adjacent g a0 b0 /\ f a0 = a /\ f b0 = b).
Proof.
  intros H H'. destruct (graph_described X opens clust g H N) as [name D]. destruct (graph_described X opens clust' g' H' N) as [name' D'].
  pose proof D as [[_ Nm] [Hn [Ha [At Ad]]]]. pose proof D' as [[_ Nm'] [Hn' [Ha' [At' Ad']]]].
  destruct (choose_map (fun z w => forall k l, is_cluster X (yields opens) clust k l -> z = name k l ->
    exists l', w = name' k l' /\ forall i, in_cluster X (yields opens) clust k l i -> in_cluster X (yields opens) clust' k l' i) (map fst (g_nodes g))) as [f Hf].
  { intros z I. apply Hn in I. destruct I as [k [l [C ->]]]. destruct (finer_inside k l C) as [l' Q]. exists (name' k l').
    intros k1 l1 C1 E. destruct (Nm k l k1 l1 C C1 E) as [<- <-]. exists l'. split; [reflexivity|exact Q]. }
  assert (Hf' : forall k l, is_cluster X (yields opens) clust k l ->
    exists l', f (name k l) = name' k l' /\ forall i, in_cluster X (yields opens) clust k l i -> in_cluster X (yields opens) clust' k l' i).
  { intros k l C. apply (Hf (name k l)); [apply Hn; exists k, l; auto|exact C|reflexivity]. }
  clear Hf. exists f. split; [|split].
  - intros z n ids A. destruct (described_node X opens clust name g z n ids D A) as [k [l [C [-> [_ Q]]]]].
    destruct (Hf' k l C) as [l' [-> R']]. destruct C as [i Ci]. destruct (Ha' k l' (ex_intro _ i (R' i Ci))) as [ids' [A' [_ Q']]].
    exists (length ids'), ids'. split; [exact A'|]. intros j Ij. apply Q', R', Q, Ij.
  - intros a b E. apply Ad in E. destruct E as [Nab [k [l [k1 [l1 [i [C1 [C2 [-> ->]]]]]]]]].
    destruct (Hf' k l (ex_intro _ i C1)) as [l' [Ea Ra]]. destruct (Hf' k1 l1 (ex_intro _ i C2)) as [l1' [Eb Rb]].
    rewrite Ea, Eb. apply Ad'. split; [|exists k, l', k1, l1', i; auto].
    intro Q. destruct (Nm' k l' k1 l1' (ex_intro _ i (Ra i C1)) (ex_intro _ i (Rb i C2)) Q) as [<- _].
    apply Nab. f_equal. exact (same_set_not_adjacent X opens clust N k l l1 i C1 C2).
  - intro NN.
    assert (Back : forall k l' i, in_cluster X (yields opens) clust' k l' i -> exists l, in_cluster X (yields opens) clust k l i /\ f (name k l) = name' k l').
    { intros k l' i C'. destruct (NN k l' i C') as [l C]. exists l. split; [exact C|]. destruct (Hf' k l (ex_intro _ i C)) as [l2 [-> R]].
      f_equal. exact (same_set_not_adjacent X opens clust' N k l2 l' i (R i C) C'). }
    split.
    + intros z n ids i A I. destruct (described_node X opens clust' name' g' z n ids D' A) as [k [l' [_ [-> [_ Q]]]]].
      destruct (Back k l' i (proj1 (Q i) I)) as [l [C E]]. destruct (Ha k l (ex_intro _ i C)) as [ids0 [A0 [_ Q0]]].
      exists (name k l), (length ids0), ids0. split; [exact A0|]. split; [apply Q0, C|exact E].
    + intros a b E. apply Ad' in E. destruct E as [Nab [k [l [k1 [l1 [i [C1 [C2 [-> ->]]]]]]]]].
      destruct (Back k l i C1) as [l0 [B1 E1]]. destruct (Back k1 l1 i C2) as [l2 [B2 E2]].
      exists (name k l0), (name k1 l2). split; [|split; assumption]. apply Ad. split; [|exists k, l0, k1, l2, i; auto].
      intro Q. apply Nab. rewrite <- E1, <- E2, Q. reflexivity.
Qed.
End Finer.

(** *** The trivial clustering *)
Section Trivial.
Context {S : Type} (X : list S) (opens : gen (list nat)).
Notation trivial := (fun _ : nat => @trivial_clustering S).

Lemma trivial_cluster k l i out : mapper_labels X opens trivial = Ok out ->
  in_cluster X (yields opens) trivial k l i <-> l = 0 /\ exists s, nth_error (yields opens) k = Some s /\ In i s.
Proof.
  intro H. destruct (mapper_labels_closed X opens trivial out H) as [_ [parts [Hp [Lp _]]]]. split.
  - intros [_ [ids [lbls [j [[E [xs [Fx C]]] [Hj Hl]]]]]]. injection C as <-. split.
    + apply nth_error_In, in_map_iff in Hl. destruct Hl as [_ [<- _]]. reflexivity.
    + exists ids. split; [exact E|exact (nth_error_In _ _ Hj)].
  - intros [-> [s [E I]]]. split; [lia|]. assert (L : (k < length parts)%nat) by (rewrite Lp; exact (nth_error_lt _ _ _ E)).
    destruct (nth_error_ex parts k L) as [[ids lbls] Ep]. pose proof (proj1 (Hp k ids lbls) Ep) as LL.
    destruct LL as [E2 [xs [Fx C]]]. assert (ids = s) by congruence. subst ids. apply In_nth_error in I. destruct I as [j Hj].
    exists s, lbls, j. split; [split; [exact E2|exists xs; auto]|]. split; [exact Hj|]. injection C as <-.
    pose proof (F2_length _ _ _ Fx) as Lx. apply nth_error_lt in Hj. rewrite nth_error_map.
    destruct (nth_error_ex xs j) as [x Ex]; [lia|]. rewrite Ex. reflexivity.
Qed.

Lemma off_at_trivial parts k : Forall (fun p : list nat * list Z => Forall (fun l => l = 0) (snd p)) parts -> (k <= length parts)%nat ->
  off_at parts k = Z.of_nat k.
Proof.
  intro Fp. revert k. induction Fp as [|[ids lbls] parts P Fp IH]; intros [|k] L; simpl in L; try lia; try reflexivity.
  simpl off_at. rewrite IH by lia.
  assert (M : maxl 0 (combine ids lbls) = 0).
  { clear - P. simpl in P. revert ids. induction P as [|l lbls E P IH]; intros [|i ids]; try reflexivity. subst l. simpl. apply IH. }
  rewrite M. lia.
Qed.

Lemma trivial_labels out : mapper_labels X opens trivial = Ok out ->
  forall i lbls, nth_error out i = Some lbls -> forall z, In z lbls <-> exists k s, z = Z.of_nat k /\ nth_error (yields opens) k = Some s /\ In i s.
Proof.
  intros H i lbls E z. destruct (mapper_labels_closed X opens trivial out H) as [_ [parts [Hp [Lp [Lo Hn]]]]].
  rewrite Hn in E by (rewrite <- Lo; exact (nth_error_lt _ _ _ E)). injection E as <-.
  assert (Tr : Forall (fun p : list nat * list Z => Forall (fun l => l = 0) (snd p)) parts).
  { apply Forall_forall. intros [ids lbls] I. apply In_nth_error in I. destruct I as [k Ek]. apply Hp in Ek. destruct Ek as [_ [xs [_ C]]].
    injection C as <-. apply Forall_forall. intros l Il. simpl in Il. apply in_map_iff in Il. destruct Il as [_ [<- _]]. reflexivity. }
  rewrite (in_all_sel_cluster X opens trivial parts i z Hp). split.
  - intros [k [l [C ->]]]. apply (trivial_cluster k l i out H) in C. destruct C as [-> [s [Es Is]]]. exists k, s. split; [|auto].
    unfold name_of. rewrite off_at_trivial by (auto; rewrite Lp; apply Nat.lt_le_incl; exact (nth_error_lt _ _ _ Es)). lia.
  - intros [k [s [-> [Es Is]]]]. exists k, 0. split; [apply (trivial_cluster k 0 i out H); split; [reflexivity|exists s; auto]|].
    unfold name_of. rewrite off_at_trivial by (auto; rewrite Lp; apply Nat.lt_le_incl; exact (nth_error_lt _ _ _ Es)). lia.
Qed.

Lemma trivial_nerve g : mapper_graph X opens trivial = Ok g -> sets_nodup (yields opens) -> ~ In [] (yields opens) -> is_nerve (yields opens) g.
Proof.
  intros H Nd Ne. unfold mapper_graph in H. apply bind_ok in H. destruct H as [out [Ho H]].
  destruct (graph_of_labels_correct out) as [g' [E [W [HN [HT HA]]]]]. rewrite H in E. injection E as <-.
  assert (Hno : Forall (@NoDup Z) out) by (eapply Forall_impl; [|exact (labels_ascending X opens trivial out Ho Nd)]; apply SSorted_Zlt_NoDup).
  pose proof (trivial_labels out Ho) as Lab.
  assert (Len : length out = length X) by (destruct (labels_are_clusters X opens trivial out Ho) as [L _]; exact L).
  assert (Row : forall k s i, nth_error (yields opens) k = Some s -> In i s -> exists lbls, nth_error out i = Some lbls).
  { intros k s i Es Is. apply nth_error_ex. rewrite Len. destruct (proj2 (trivial_cluster k 0 i out Ho)) as [_ [ids [lb [j [[_ [xs [Fx _]]] [Hj _]]]]]]; [split; [reflexivity|exists s; auto]|].
    eapply Forall2_in_range; eauto. eapply nth_error_In; eauto. }
  assert (Node : forall k s, nth_error (yields opens) k = Some s -> has_node g (Z.of_nat k)).
  { intros k s Es. destruct s as [|i s]; [exfalso; apply Ne; exact (nth_error_In _ _ Es)|].
    destruct (Row k (i :: s) i Es (or_introl eq_refl)) as [lbls El]. apply HN. exists i, lbls. split; [exact El|].
    apply (Lab i lbls El). exists k, (i :: s). split; [reflexivity|]. split; [exact Es|left; reflexivity]. }
  assert (Ids : forall k s, nth_error (yields opens) k = Some s -> forall i, In i (ids_of (pts 0 out) (Z.of_nat k)) <-> In i s).
  { intros k s Es i. rewrite in_ids_of, in_pts. split.
    - intros [q [lbls [H1 [H2 ->]]]]. simpl. apply (Lab q lbls H1) in H2. destruct H2 as [k' [s' [Ek [Es' Is']]]].
      apply Nat2Z.inj in Ek. subst k'. congruence.
    - intro Is. destruct (Row k s i Es Is) as [lbls El]. exists i, lbls. split; [exact El|]. split; [|reflexivity].
      apply (Lab i lbls El). exists k, s. auto. }
  split; [|split].
  - intro z. split.
    + intro Hz. apply HN in Hz. destruct Hz as [i [lbls [E1 E2]]]. apply (Lab i lbls E1) in E2. destruct E2 as [k [s [-> [Es _]]]]. exists k, s. auto.
    + intros [k [s [-> Es]]]. exact (Node k s Es).
  - intros k s Es. exists (ids_of (pts 0 out) (Z.of_nat k)).
    pose proof (proj1 (ids_of_pts_sorted out (Z.of_nat k) Hno 0)) as St. split; [|split; [exact St|exact (Ids k s Es)]].
    apply HT. split; [exact (Node k s Es)|]. split; [reflexivity|].
    apply Nat.le_antisymm; apply NoDup_incl_length; try (intros i I; apply (Ids k s Es); exact I).
    + unfold sets_nodup in Nd. rewrite Forall_forall in Nd. apply Nd. exact (nth_error_In _ _ Es).
    + apply sorted_nodup. exact St.
  - intros k k'. rewrite HA. split.
    + intros [i [lbls [E1 T]]]. assert (Nl : NoDup lbls) by (rewrite Forall_forall in Hno; apply Hno; exact (nth_error_In _ _ E1)).
      apply (together_nodup _ _ _ Nl) in T. destruct T as [D [I1 I2]]. split; [intros ->; apply D; reflexivity|].
      apply (Lab i lbls E1) in I1. apply (Lab i lbls E1) in I2. destruct I1 as [a [s [Ea [Es Is]]]], I2 as [b [s' [Eb [Es' Is']]]].
      apply Nat2Z.inj in Ea. apply Nat2Z.inj in Eb. subst a b. exists s, s', i. auto.
    + intros [D [s [s' [i [Es [Es' [Is Is']]]]]]]. destruct (Row k s i Es Is) as [lbls El]. exists i, lbls. split; [exact El|].
      apply together_nodup; [rewrite Forall_forall in Hno; apply Hno; exact (nth_error_In _ _ El)|]. split; [lia|].
      split; apply (Lab i lbls El); [exists k, s|exists k', s']; auto.
Qed.
End Trivial.

Lemma finer_trivial {S} (X : list S) opens clust out : mapper_labels X opens (fun _ => trivial_clustering) = Ok out ->
  finer X (yields opens) clust (fun _ => trivial_clustering).
Proof.
  intros H k l i j Ci Cj. exists 0. split; apply (trivial_cluster X opens k 0 _ out H); (split; [reflexivity|]).
  - exact (cluster_set (yields opens) X clust k l i Ci).
  - exact (cluster_set (yields opens) X clust k l j Cj).
Qed.

(** *** Position-wise larger covers *)
Lemma larger_refines {S} (X : list S) opens opens' out : mapper_labels X opens (fun _ => trivial_clustering) = Ok out ->
  (exists out', mapper_labels X opens' (fun _ => trivial_clustering) = Ok out') ->
  Forall2 (@incl nat) (yields opens) (yields opens') ->
  refines X (yields opens) (fun _ => trivial_clustering) (yields opens') (fun _ => trivial_clustering).
Proof.
  intros H [out' H'] F k l C. exists k, 0. intros i Ci. apply (trivial_cluster X opens k l i out H) in Ci. destruct Ci as [_ [s [Es Is]]].
  apply (trivial_cluster X opens' k 0 i out' H'). split; [reflexivity|]. destruct (F2_nth_l _ _ _ _ _ F Es) as [s' [Es' I]]. exists s'. auto.
Qed.

(** Lists without repetitions, in an asymmetric order, and with the same elements, are equal. *)
Lemma ordered_same {A} (R : A -> A -> Prop) (l : list A) : (forall a b, R a b -> R b a -> False) ->
  forall l', StronglySorted R l -> StronglySorted R l' -> (forall a, In a l <-> In a l') -> l = l'.
Proof.
  intro As. induction l as [|a l IH]; intros [|b l'] S1 S2 H.
  - reflexivity.
  - exfalso. apply (proj2 (H b)). left. reflexivity.
  - exfalso. apply (proj1 (H a)). left. reflexivity.
  - inversion S1 as [|? ? S1' F1]; subst. inversion S2 as [|? ? S2' F2]; subst. rewrite Forall_forall in F1, F2.
    assert (a = b).
    { destruct (proj1 (H a) (or_introl eq_refl)) as [Q|Q]; [congruence|]. destruct (proj2 (H b) (or_introl eq_refl)) as [Q'|Q']; [congruence|].
      exfalso. exact (As a b (F1 b Q') (F2 a Q)). }
    subst b. f_equal. apply IH; auto. intro i. split; intro I.
    + destruct (proj1 (H i) (or_intror I)) as [<-|Q]; [|exact Q]. exfalso. exact (As a a (F1 a I) (F1 a I)).
    + destruct (proj2 (H i) (or_intror I)) as [<-|Q]; [|exact Q]. exfalso. exact (As a a (F2 a I) (F2 a I)).
Qed.
Lemma sorted_nth {A} (R : A -> A -> Prop) (l : list A) :
  (forall i j a b, (i < j)%nat -> nth_error l i = Some a -> nth_error l j = Some b -> R a b) -> StronglySorted R l.
Proof.
  induction l as [|a l IH]; intro H; constructor.
  - apply IH. intros i j x y L Ei Ej. apply (H (S i) (S j)); [lia|exact Ei|exact Ej].
  - apply Forall_forall. intros b I. apply In_nth_error in I. destruct I as [j Ej]. apply (H 0%nat (S j)); [lia|reflexivity|exact Ej].
Qed.
