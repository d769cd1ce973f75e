(** Proofs on the order of the rows. *)
From Coq Require Import Permutation.
From Verif Require Import Base BaseFacts ModelCore SpecCore SpecNet CoreLabels CoreProp SpecTuning TuningProp SpecRows.
Open Scope Z_scope.

Lemma sorted_nodup (l : list nat) : StronglySorted lt l -> NoDup l.
Proof.
  induction 1 as [|a l H IH F]; constructor; [|exact IH]. intro I. rewrite Forall_forall in F. specialize (F _ I). lia.
Qed.

(** *** New positions *)
Section Renumber.
Context {S : Type}.
Variables (s : list nat) (X X' : list S).
Hypothesis Hre : reordered s X X'.

Lemma s_nodup : NoDup s.
Proof. destruct Hre as [P _]. eapply Permutation_NoDup; [symmetry; exact P|apply seq_NoDup]. Qed.
Lemma s_length : length s = length X /\ length X' = length X.
Proof.
  destruct Hre as [P E]. apply Permutation_length in P. rewrite seq_length in P. split; [exact P|].
  apply (f_equal (@length _)) in E. rewrite !map_length in E. lia.
Qed.

(** The place of [i] in [s]. *)
Fixpoint find_place (l : list nat) (i : nat) : nat :=
  match l with [] => O | a :: l => if Nat.eqb a i then O else Datatypes.S (find_place l i) end.
Definition newpos (i : nat) : nat := find_place s i.

Lemma find_place_in l i : In i l -> nth_error l (find_place l i) = Some i.
Proof.
  induction l as [|a l IH]; intro H; [contradiction|]. simpl. destruct (Nat.eqb_spec a i) as [->|N]; [reflexivity|].
  destruct H as [H|H]; [contradiction|]. exact (IH H).
Qed.
Lemma newpos_ok i : (i < length X)%nat -> nth_error s (newpos i) = Some i.
Proof.
  intro H. apply find_place_in. destruct Hre as [P _]. eapply Permutation_in; [symmetry; exact P|]. apply in_seq. lia.
Qed.
Lemma newpos_old a i : nth_error s a = Some i -> newpos i = a /\ (i < length X)%nat.
Proof.
  intro H. assert (I : (i < length X)%nat).
  { destruct Hre as [P _]. apply nth_error_In in H. eapply Permutation_in in H; [|exact P]. apply in_seq in H. lia. }
  split; [|exact I]. eapply NoDup_nth_error; [exact s_nodup| |].
  - apply nth_error_Some. rewrite newpos_ok by exact I. discriminate.
  - rewrite newpos_ok by exact I. congruence.
Qed.
Lemma newpos_inj i j : (i < length X)%nat -> (j < length X)%nat -> newpos i = newpos j -> i = j.
Proof. intros I J E. apply newpos_ok in I, J. rewrite E in I. congruence. Qed.
Lemma old_ex a : (a < length X)%nat -> exists i, nth_error s a = Some i /\ (i < length X)%nat.
Proof.
  intro H. destruct (nth_error_ex s a) as [i Hi]; [destruct s_length; lia|]. exists i. split; [exact Hi|]. apply (newpos_old a i Hi).
Qed.
Lemma row_moved i x : nth_error X i = Some x -> nth_error X' (newpos i) = Some x.
Proof.
  intro H. assert (I : (i < length X)%nat) by (apply nth_error_Some; congruence).
  destruct Hre as [_ E]. destruct (map_nth_some X s X' _ _ E (newpos_ok i I)) as [y [A B]]. congruence.
Qed.
Lemma row_back a i x : nth_error s a = Some i -> nth_error X' a = Some x -> nth_error X i = Some x.
Proof. intros H N. destruct Hre as [_ E]. destruct (map_nth_some X s X' _ _ E H) as [y [A B]]. congruence. Qed.

Lemma points_valid ids ids' : same_points s ids ids' -> Forall (fun i => (i < length X)%nat) ids.
Proof.
  intro P. apply Forall_forall. intros i I. apply (in_map Some) in I. eapply Permutation_in in I; [|exact P].
  apply in_map_iff in I as [a [E _]]. apply (newpos_old a i E).
Qed.
Lemma points_perm ids ids' : same_points s ids ids' -> Permutation (map newpos ids) ids'.
Proof.
  intro P. assert (V : Forall (fun a => exists i, nth_error s a = Some i) ids').
  { apply Forall_forall. intros a I. apply (in_map (nth_error s)) in I. eapply Permutation_in in I; [|symmetry; exact P].
    apply in_map_iff in I as [i [E _]]. exists i. congruence. }
  apply (Permutation_map (fun o => match o with Some i => newpos i | None => O end)) in P. rewrite !map_map in P.
  eapply Permutation_trans; [exact P|]. rewrite <- (map_id ids') at 2.
  rewrite (map_ext_in _ (fun a => a)); [reflexivity|]. intros a I. rewrite Forall_forall in V. destruct (V a I) as [i E].
  rewrite E. apply (newpos_old a i E).
Qed.
Lemma points_iff ids ids' : same_points s ids ids' -> forall a i, nth_error s a = Some i -> (In i ids <-> In a ids').
Proof.
  intros P a i E. pose proof (points_perm _ _ P) as Q. pose proof (points_valid _ _ P) as V. rewrite Forall_forall in V.
  destruct (newpos_old a i E) as [Ei Vi]. split; intro I.
  - eapply Permutation_in; [exact Q|]. rewrite <- Ei. apply in_map, I.
  - eapply Permutation_in in I; [|symmetry; exact Q]. apply in_map_iff in I as [j [Ej I]].
    rewrite (newpos_inj i j); [exact I|exact Vi|exact (V j I)|congruence].
Qed.
Lemma points_intro ids ids' : NoDup ids -> NoDup ids' -> Forall (fun i => (i < length X)%nat) ids -> Forall (fun a => (a < length X)%nat) ids' ->
  (forall a i, nth_error s a = Some i -> (In i ids <-> In a ids')) -> same_points s ids ids'.
Proof.
  intros N N' V V' H. rewrite Forall_forall in V, V'. apply NoDup_Permutation.
  - apply FinFun.Injective_map_NoDup; [congruence|exact N].
  - assert (G : forall l, (forall a, In a l -> (a < length X)%nat) -> NoDup l -> NoDup (map (nth_error s) l)).
    { induction l as [|a l IH]; intros B D; [constructor|]. inversion D; subst. constructor; [|apply IH; auto; intros; apply B; right; auto].
      intro I. apply in_map_iff in I as [b [E I]]. destruct (old_ex a) as [i [Ea _]]; [apply B; left; reflexivity|].
      rewrite Ea in E. assert (a = b) by (destruct (newpos_old a i Ea), (newpos_old b i E); congruence). subst. contradiction. }
    apply G; [exact V'|exact N'].
  - intro o. rewrite !in_map_iff. split.
    + intros [i [<- I]]. exists (newpos i). pose proof (newpos_ok i (V i I)) as E. split; [exact E|]. apply (H _ _ E), I.
    + intros [a [<- I]]. destruct (old_ex a (V' a I)) as [i [E _]]. exists i. split; [congruence|]. apply (H a i E), I.
Qed.
End Renumber.

(** *** Mapper *)
Section Rows.
Context {S : Type}.
Variables (s : list nat) (X X' : list S).
Variable clust : clustering S.
Hypothesis Hre : reordered s X X'.
Hypothesis Hfree : order_free clust.
Hypothesis Hcall : call_free clust.
Variables opens opens' : gen (list nat).
Hypothesis Hsame : same_cover s opens opens'.
Hypothesis Hnd : sets_nodup (yields opens).
Notation pi := (newpos s).
Notation moved := (map (map pi)).

Lemma moved_labels ops k ids ls : Forall (Forall (fun i => (i < length X)%nat)) ops ->
  (local_labels X ops clust k ids ls <-> Forall (fun i => (i < length X)%nat) ids /\ local_labels X' (moved ops) clust k (map pi ids) ls /\ nth_error ops k = Some ids).
Proof.
  intro V. split.
  - intros [N [xs [F C]]]. assert (Vi : Forall (fun i => (i < length X)%nat) ids) by (rewrite Forall_forall in V; apply V; eapply nth_error_In, N).
    split; [exact Vi|]. split; [|exact N]. split; [rewrite nth_error_map, N; reflexivity|]. exists xs. split; [|exact C].
    clear - F Hre. induction F; constructor; auto. eapply row_moved; eauto.
  - intros [Vi [[N [xs [F C]]] N']]. split; [exact N'|]. exists xs. split; [|exact C].
    clear - F Vi Hre. remember (map pi ids) as l eqn:E. revert ids Vi E. induction F as [|a x l xs H F IH]; intros [|i ids] Vi E; try discriminate; constructor.
    + injection E as -> ->. inversion Vi; subst. eapply row_back; [exact Hre| |exact H]. eapply newpos_ok; eauto.
    + injection E as -> ->. inversion Vi; subst. apply IH; auto.
Qed.

Lemma moved_mates ops k i j : Forall (Forall (fun i => (i < length X)%nat)) ops -> (i < length X)%nat -> (j < length X)%nat ->
  (mates X clust ops k i j <-> mates X' clust (moved ops) k (pi i) (pi j)).
Proof.
  intros V Vi Vj.
  assert (Q : forall l i, (i < length X)%nat -> (in_cluster X ops clust k l i <-> in_cluster X' (moved ops) clust k l (pi i))).
  { clear i j Vi Vj. intros l i Vi. split.
    - intros [Hl [ids [ls [p [L [Ip Lp]]]]]]. split; [exact Hl|]. apply moved_labels in L as [_ [L _]]; [|exact V].
      exists (map pi ids), ls, p. split; [exact L|]. split; [rewrite nth_error_map, Ip; reflexivity|exact Lp].
    - intros [Hl [ids [ls [p [L [Ip Lp]]]]]]. split; [exact Hl|]. pose proof L as [N _]. rewrite nth_error_map in N.
      destruct (nth_error ops k) as [ids0|] eqn:N0; [|discriminate]. injection N as <-.
      assert (V0 : Forall (fun i => (i < length X)%nat) ids0) by (rewrite Forall_forall in V; apply V; eapply nth_error_In, N0).
      rewrite nth_error_map in Ip. destruct (nth_error ids0 p) as [i0|] eqn:I0; [|discriminate]. injection Ip as Ip.
      assert (i0 = i). { eapply newpos_inj; eauto. rewrite Forall_forall in V0. apply V0. eapply nth_error_In, I0. } subst i0.
      exists ids0, ls, p. split; [apply moved_labels; auto|]. auto. }
  split; intros [l [A B]]; exists l; split; apply Q; assumption.
Qed.

Lemma swap_labels (ops ops' : list (list nat)) k k' ids ls : nth_error ops k = nth_error ops' k' ->
  (local_labels X' ops clust k ids ls <-> local_labels X' ops' clust k' ids ls).
Proof. intro E. unfold local_labels. rewrite E. setoid_rewrite (Hcall k k'). reflexivity. Qed.

Lemma swap_mates (ops ops' : list (list nat)) k k' i j : nth_error ops k = nth_error ops' k' ->
  (mates X' clust ops k i j <-> mates X' clust ops' k' i j).
Proof. intro E. unfold mates, in_cluster. setoid_rewrite (swap_labels ops ops' k k' _ _ E). reflexivity. Qed.

(** Which set of the second run is which set of the first. *)
Lemma sets_matched : exists (kappa : nat -> nat) sets,
  Forall (Forall (fun i => (i < length X)%nat)) (yields opens) /\
  Forall2 (@Permutation nat) (moved (yields opens)) sets /\
  length (yields opens) = length (yields opens') /\
  (forall k, nth_error sets k = nth_error (yields opens') (kappa k)) /\
  (forall k k', kappa k = kappa k' -> k = k') /\
  (forall k', (k' < length (yields opens'))%nat -> exists k, (k < length (yields opens))%nat /\ k' = kappa k) /\
  sets_nodup sets /\ sets_nodup (yields opens').
Proof.
  destruct Hsame as [_ [sets [P F]]].
  assert (V : Forall (Forall (fun i => (i < length X)%nat)) (yields opens)).
  { clear - F Hre. induction F; constructor; auto. eapply points_valid; eauto. }
  assert (F' : Forall2 (@Permutation nat) (moved (yields opens)) sets).
  { clear - F Hre. induction F; simpl; constructor; auto. eapply points_perm; eauto. }
  assert (L : length (yields opens) = length sets) by (clear - F; induction F; simpl; congruence).
  assert (Nm : sets_nodup (moved (yields opens))).
  { clear - V Hnd Hre. unfold sets_nodup in *. induction (yields opens) as [|a l IH]; [constructor|].
    inversion V; inversion Hnd; subst. simpl. constructor; [|apply IH; assumption].
    clear - H1 H5 Hre. induction a as [|i a IH]; [constructor|]. inversion H1; inversion H5; subst. simpl. constructor; [|apply IH; assumption].
    intro I. apply in_map_iff in I as [j [E I]]. rewrite Forall_forall in H3.
    assert (j = i) by (eapply newpos_inj; eauto). subst. contradiction. }
  pose proof (F2_perm_nodup _ _ F' Nm) as Ns.
  pose proof (Permutation_length P) as Lp.
  apply Permutation_nth_error_bis in P as P'. destruct P' as [kappa [Inj [B E]]].
  exists kappa, sets. split; [exact V|]. split; [exact F'|]. split; [lia|]. split; [exact E|]. split; [exact Inj|].
  split; [|split; [exact Ns|]].
  - intros k' Hk. destruct (FinFun.bInjective_bSurjective B) as [Q _].
    destruct (Q ltac:(intros x y _ _ Exy; apply Inj, Exy) k' Hk) as [k [Hk1 Hk2]]. exists k. split; [lia|auto].
  - unfold sets_nodup in *. rewrite Forall_forall in *. intros x Hx. apply Ns. eapply Permutation_in; [exact P|exact Hx].
Qed.

Lemma rows_labels out : mapper_labels X opens clust = Ok out -> exists out', mapper_labels X' opens' clust = Ok out'.
Proof.
  intro E. destruct sets_matched as [kappa [sets [V [F [L [K [Ki [Ks [Ns Ns']]]]]]]]].
  destruct (labels_ok_inv X opens clust out E) as [St J]. destruct Hsame as [Es _]. apply labels_total; [congruence|].
  intros k' Hk'. destruct (Ks k' Hk') as [k [Hk ->]]. destruct (J k Hk) as [ids [ls Lo]].
  apply moved_labels in Lo as [_ [Lo _]]; [|exact V].
  destruct (local_same X' clust Hfree _ _ _ _ _ F Lo) as [ids' [ls' [_ [L' _]]]].
  exists ids', ls'. apply (swap_labels sets _ k (kappa k) _ _ (K k)), L'.
Qed.

Lemma cluster_valid k l i : in_cluster X (yields opens) clust k l i -> (i < length X)%nat.
Proof.
  intros [_ [ids [ls [p [[N [xs [F _]]] [Ip _]]]]]]. clear - F Ip. revert p Ip.
  induction F as [|a x ids xs H F IH]; intros [|p] I; try discriminate; [|exact (IH p I)]. injection I as <-. apply nth_error_Some. congruence.
Qed.
Lemma cluster_valid' k l i : in_cluster X' (yields opens') clust k l i -> (i < length X)%nat /\ (k < length (yields opens'))%nat.
Proof.
  intros [_ [ids [ls [p [[N [xs [F _]]] [Ip _]]]]]]. split; [|apply nth_error_Some; congruence].
  clear N. destruct (s_length s X X' Hre) as [_ <-]. clear - F Ip. revert p Ip.
  induction F as [|a x ids xs H F IH]; intros [|p] I; try discriminate; [|exact (IH p I)]. injection I as <-. apply nth_error_Some. congruence.
Qed.

Lemma rows_same g : mapper_graph X opens clust = Ok g -> exists g', mapper_graph X' opens' clust = Ok g' /\ same_graph_of s g g'.
Proof.
  intro E. assert (exists out, mapper_labels X opens clust = Ok out) as [out Eo].
  { unfold mapper_graph in E. apply bind_ok in E as [out [Eo _]]. eauto. }
  destruct (rows_labels out Eo) as [out' Eo']. destruct (graph_exists X' opens' clust out' Eo') as [g' E'].
  exists g'. split; [exact E'|].
  destruct sets_matched as [kappa [sets [V [F [L [K [Ki [Ks [Ns Nd']]]]]]]]].
  assert (MS : forall k i j, (i < length X)%nat -> (j < length X)%nat ->
    (mates X clust (yields opens) k i j <-> mates X' clust (yields opens') (kappa k) (pi i) (pi j))).
  { intros k i j Vi Vj. rewrite (moved_mates _ k i j V Vi Vj), <- (swap_mates sets (yields opens') k (kappa k) _ _ (K k)).
    split; apply mates_same; auto; [eapply F2_perm_nodup; [apply F2_perm_sym, F|exact Ns]|apply F2_perm_sym, F]. }
  set (M := fun k l k' l' => k' = kappa k /\ exists i, in_cluster X (yields opens) clust k l i /\ in_cluster X' (yields opens') clust k' l' (pi i)).
  assert (Mpt : forall k l k' l' i, M k l k' l' -> (i < length X)%nat -> (in_cluster X (yields opens) clust k l i <-> in_cluster X' (yields opens') clust k' l' (pi i))).
  { intros k l k' l' i [-> [j [A B]]] Vi. pose proof (cluster_valid _ _ _ A) as Vj. split; intro H.
    - destruct (proj1 (MS k i j Vi Vj)) as [m [C D]]; [exists l; auto|]. rewrite (one_label X' clust _ _ _ _ _ Nd' B D). exact C.
    - destruct (proj2 (MS k i j Vi Vj)) as [m [C D]]; [exists l'; auto|]. rewrite (one_label X clust _ _ _ _ _ Hnd A D). exact C. }
  assert (Mex : forall k l, is_cluster X (yields opens) clust k l -> exists k' l', M k l k' l').
  { intros k l [i Hi]. pose proof (cluster_valid _ _ _ Hi) as Vi. destruct (proj1 (MS k i i Vi Vi)) as [l' [A _]]; [exists l; auto|].
    exists (kappa k), l'. split; [reflexivity|]. exists i. auto. }
  assert (Mex' : forall k' l', is_cluster X' (yields opens') clust k' l' -> exists k l, M k l k' l').
  { intros k' l' [a Ha]. destruct (cluster_valid' _ _ _ Ha) as [Va Vk]. destruct (Ks k' Vk) as [k [_ ->]].
    destruct (old_ex s X X' Hre a Va) as [i [Ei Vi]]. destruct (newpos_old s X X' Hre a i Ei) as [Ep _]. rewrite <- Ep in Ha.
    destruct (proj2 (MS k i i Vi Vi)) as [l [A _]]; [exists l'; auto|]. exists k, l. split; [reflexivity|]. exists i. auto. }
  assert (Mfun : forall k l k1 l1 k2 l2, M k l k1 l1 -> M k l k2 l2 -> k1 = k2 /\ l1 = l2).
  { intros k l k1 l1 k2 l2 M1 [-> [i [A B]]]. pose proof (cluster_valid _ _ _ A) as Vi. apply (Mpt _ _ _ _ i M1 Vi) in A.
    destruct M1 as [-> _]. split; [reflexivity|]. exact (one_label X' clust _ _ _ _ _ Nd' A B). }
  assert (Minj : forall k1 l1 k2 l2 k' l', M k1 l1 k' l' -> M k2 l2 k' l' -> k1 = k2 /\ l1 = l2).
  { intros k1 l1 k2 l2 k' l' M1 [Ek [i [A B]]]. pose proof (cluster_valid _ _ _ A) as Vi. apply (Mpt _ _ _ _ i M1 Vi) in B.
    destruct M1 as [Ek' _]. assert (k1 = k2) by (apply Ki; congruence). subst k2. split; [reflexivity|]. exact (one_label X clust _ _ _ _ _ Hnd B A). }
  assert (CL : forall k l k' l', M k l k' l' -> is_cluster X (yields opens) clust k l /\ is_cluster X' (yields opens') clust k' l').
  { intros k l k' l' [_ [i [A B]]]. split; eexists; eassumption. }
  destruct (graph_nodes_are_clusters X opens clust g E Hnd) as [W [name [[_ Inj] [HN HA]]]].
  destruct (graph_nodes_are_clusters X' opens' clust g' E' Nd') as [W' [name' [[_ Inj'] [HN' HA']]]].
  destruct (choose_names (fun a b => exists k l k' l', M k l k' l' /\ a = name k l /\ b = name' k' l') (map fst (g_nodes g))) as [f Hf].
  { intros a Ha. apply HN in Ha as [k [l [C ->]]]. destruct (Mex k l C) as [k' [l' Mk]]. exists (name' k' l'), k, l, k', l'. auto. }
  assert (Hfn : forall k l k' l', M k l k' l' -> f (name k l) = name' k' l').
  { intros k l k' l' Mk. destruct (CL _ _ _ _ Mk) as [C C'].
    destruct (Hf (name k l)) as [k2 [l2 [k2' [l2' [M2 [E1 E2]]]]]]; [apply HN; eauto|].
    destruct (CL _ _ _ _ M2) as [C2 _]. destruct (Inj k l k2 l2 C C2 E1) as [<- <-].
    destruct (Mfun _ _ _ _ _ _ M2 Mk) as [<- <-]. exact E2. }
  assert (Hattr : forall k l k' l' n ids n' ids', M k l k' l' -> node_attr g (name k l) n ids -> node_attr g' (name' k' l') n' ids' -> n = n' /\ same_points s ids ids').
  { intros k l k' l' n ids n' ids' Mk A B. destruct (CL _ _ _ _ Mk) as [C C'].
    destruct (HA k l C) as [d [A1 [A2 A3]]]. destruct (HA' k' l' C') as [d' [B1 [B2 B3]]].
    destruct (attr_unique g _ _ _ _ _ W A1 A) as [<- <-]. destruct (attr_unique g' _ _ _ _ _ W' B1 B) as [<- <-].
    assert (Q : same_points s d d').
    { eapply points_intro; eauto.
      - apply sorted_nodup, A2.
      - apply sorted_nodup, B2.
      - apply Forall_forall. intros i I. apply A3 in I. eapply cluster_valid, I.
      - apply Forall_forall. intros i I. apply B3 in I. eapply cluster_valid', I.
      - intros a i Ei. destruct (newpos_old s X X' Hre a i Ei) as [<- Vi]. rewrite A3, B3. exact (Mpt _ _ _ _ i Mk Vi). }
    split; [|exact Q]. apply Permutation_length in Q. rewrite !map_length in Q. exact Q. }
  assert (Hinj : forall a b, has_node g a -> has_node g b -> f a = f b -> a = b).
  { intros a b Ha Hb Eab. apply HN in Ha as [k [l [C ->]]]. apply HN in Hb as [k2 [l2 [C2 ->]]].
    destruct (Mex k l C) as [k' [l' Mk]]. destruct (Mex k2 l2 C2) as [k2' [l2' M2]].
    rewrite (Hfn _ _ _ _ Mk), (Hfn _ _ _ _ M2) in Eab. destruct (CL _ _ _ _ Mk) as [_ C']. destruct (CL _ _ _ _ M2) as [_ C2'].
    destruct (Inj' k' l' k2' l2' C' C2' Eab) as [<- <-]. destruct (Minj _ _ _ _ _ _ Mk M2) as [<- <-]. reflexivity. }
  assert (Hat : forall z n ids n' ids', node_attr g z n ids -> node_attr g' (f z) n' ids' -> n = n' /\ same_points s ids ids').
  { intros z n ids n' ids' A B. assert (Hz : has_node g z) by (apply in_map_iff; exists (z, (n, ids)); auto).
    apply HN in Hz as [k [l [C ->]]]. destruct (Mex k l C) as [k' [l' Mk]]. rewrite (Hfn _ _ _ _ Mk) in B. eapply Hattr; eauto. }
  assert (Hto : forall z, has_node g z -> has_node g' (f z)).
  { intros z Hz. apply HN in Hz as [k [l [C ->]]]. destruct (Mex k l C) as [k' [l' Mk]]. rewrite (Hfn _ _ _ _ Mk).
    apply HN'. exists k', l'. split; [apply (CL _ _ _ _ Mk)|reflexivity]. }
  assert (Hnode : forall h z, has_node h z -> exists n ids, node_attr h z n ids).
  { intros h z Hz. apply in_map_iff in Hz as [[z' [n ids]] [<- I]]. exists n, ids. exact I. }
  assert (Hval : forall z n ids i, node_attr g z n ids -> In i ids -> (i < length X)%nat).
  { intros z n ids i A I. assert (Hz : has_node g z) by (apply in_map_iff; exists (z, (n, ids)); auto).
    apply HN in Hz as [k [l [C ->]]]. destruct (HA k l C) as [d [A1 [_ A3]]]. destruct (attr_unique g _ _ _ _ _ W A1 A) as [_ <-].
    apply A3 in I. eapply cluster_valid, I. }
  exists f. split; [exact Hto|]. split; [|split; [exact Hinj|split; [exact Hat|]]].
  - intros z' Hz. apply HN' in Hz as [k' [l' [C ->]]]. destruct (Mex' k' l' C) as [k [l Mk]].
    exists (name k l). split; [apply HN; exists k, l; split; [apply (CL _ _ _ _ Mk)|reflexivity]|]. symmetry. apply Hfn, Mk.
  - intros a b Ha Hb. rewrite (graph_edges_share_points X opens clust g E Hnd), (graph_edges_share_points X' opens' clust g' E' Nd').
    destruct (Hnode g' (f a) (Hto a Ha)) as [na' [ia' Na']]. destruct (Hnode g' (f b) (Hto b Hb)) as [nb' [ib' Nb']].
    split; intros [Hne [na [ia [nb [ib [i [A [B [Ia Ib]]]]]]]]].
    + split; [intro Ef; apply Hne, Hinj; assumption|]. destruct (Hat _ _ _ _ _ A Na') as [_ Pa]. destruct (Hat _ _ _ _ _ B Nb') as [_ Pb].
      pose proof (newpos_ok s X X' Hre i (Hval _ _ _ _ A Ia)) as Ei.
      exists na', ia', nb', ib', (pi i). split; [exact Na'|]. split; [exact Nb'|].
      split; [apply (points_iff s X X' Hre _ _ Pa _ i Ei), Ia|apply (points_iff s X X' Hre _ _ Pb _ i Ei), Ib].
    + split; [intro Ef; apply Hne; congruence|].
      destruct (Hnode g a Ha) as [ma [ja Na]]. destruct (Hnode g b Hb) as [mb [jb Nb]].
      destruct (Hat _ _ _ _ _ Na A) as [_ Pa]. destruct (Hat _ _ _ _ _ Nb B) as [_ Pb].
      assert (exists j, nth_error s i = Some j) as [j Ej].
      { apply (in_map (nth_error s)) in Ia. eapply Permutation_in in Ia; [|symmetry; exact Pa]. apply in_map_iff in Ia as [j [Ej _]]. eauto. }
      exists ma, ja, mb, jb, j. split; [exact Na|]. split; [exact Nb|].
      split; [apply (points_iff s X X' Hre _ _ Pa _ j Ej), Ia|apply (points_iff s X X' Hre _ _ Pb _ j Ej), Ib].
Qed.

Lemma rows_components comps : mapper_connected_components X opens clust = Ok comps ->
  exists comps', mapper_connected_components X' opens' clust = Ok comps' /\ same_partition_of s comps comps'.
Proof.
  intro Ec. assert (exists out, mapper_labels X opens clust = Ok out) as [out Eo].
  { unfold mapper_connected_components in Ec. apply bind_ok in Ec as [out [Eo _]]. eauto. }
  destruct (rows_labels out Eo) as [out' Eo'].
  destruct (components_of_graph X opens clust out Eo) as [g [cs [Eg [Ecs [L P]]]]]. rewrite Ec in Ecs. injection Ecs as <-.
  destruct (components_of_graph X' opens' clust out' Eo') as [g' [cs' [Eg' [Ecs' [L' P']]]]].
  exists cs'. split; [exact Ecs'|].
  destruct (rows_same g Eg) as [g2 [Eg2 [f [F1 [F2 [F3 [F4 F5]]]]]]].
  rewrite Eg' in Eg2. injection Eg2 as <-.
  pose proof (graph_edges_symmetric X opens clust g Eg) as Sy. pose proof (graph_edges_symmetric X' opens' clust g' Eg') as Sy'.
  assert (Nd : forall h z n ids, node_attr h z n ids -> has_node h z).
  { intros h z n ids A. apply in_map_iff. exists (z, (n, ids)). auto. }
  assert (Hnode : forall h z, has_node h z -> exists n ids, node_attr h z n ids).
  { intros h z Hz. apply in_map_iff in Hz as [[z' [n ids]] [<- I]]. exists n, ids. exact I. }
  assert (To : forall a i z n ids, nth_error s a = Some i -> node_attr g z n ids -> In i ids -> exists n' ids', node_attr g' (f z) n' ids' /\ In a ids').
  { intros a i z n ids Ei A I. destruct (Hnode g' (f z) (F1 z (Nd _ _ _ _ A))) as [n' [ids' A']]. exists n', ids'. split; [exact A'|].
    destruct (F4 _ _ _ _ _ A A') as [_ Q]. apply (points_iff s X X' Hre _ _ Q a i Ei), I. }
  assert (In1 : forall a i, nth_error s a = Some i -> ((exists z n ids, node_attr g z n ids /\ In i ids) <-> (exists z n ids, node_attr g' z n ids /\ In a ids))).
  { intros a i Ei. split; intros [z [n [ids [A I]]]].
    - exists (f z). exact (To a i z n ids Ei A I).
    - destruct (F2 z (Nd _ _ _ _ A)) as [y [Hy ->]]. destruct (Hnode g y Hy) as [n0 [ids0 A0]]. exists y, n0, ids0. split; [exact A0|].
      destruct (F4 _ _ _ _ _ A0 A) as [_ Q]. apply (points_iff s X X' Hre _ _ Q a i Ei), I. }
  assert (Hm : forall a i c c', nth_error s a = Some i -> nth_error comps i = Some c -> nth_error cs' a = Some c' -> (c = -1 <-> c' = -1)).
  { intros a i c c' Ei N N'. destruct (P i c N) as [A _]. destruct (P' a c' N') as [A' _]. rewrite A, A', (In1 a i Ei). reflexivity. }
  split; [destruct (s_length s X X' Hre); congruence|]. split; [exact Hm|].
  intros a b i j c c' d d' Ei Ej Nc Nc' Nd1 Nd2.
  pose proof (Hm _ _ _ _ Ei Nc Nc') as M1. pose proof (Hm _ _ _ _ Ej Nd1 Nd2) as M2.
  destruct (Z.eq_dec c (-1)) as [->|Hc]; [|destruct (Z.eq_dec d (-1)) as [->|Hd]].
  - assert (c' = -1) by (apply M1; reflexivity). subst c'. split; intro Q; symmetry; apply M2; symmetry; exact Q.
  - assert (d' = -1) by (apply M2; reflexivity). subst d'. split; intro Q; [congruence|]. apply M1, Q.
  - destruct (P i c Nc) as [A B]. destruct (P j d Nd1) as [A2 B2].
    assert (W1 : exists z n ids, node_attr g z n ids /\ In i ids).
    { destruct (in_nodes_dec g i) as [Y|N]; [exact Y|]. exfalso. apply Hc, A, N. }
    assert (W2 : exists z n ids, node_attr g z n ids /\ In j ids).
    { destruct (in_nodes_dec g j) as [Y|N]; [exact Y|]. exfalso. apply Hd, A2, N. }
    destruct W1 as [z [n [ids [At Hi]]]]. destruct W2 as [z2 [n2 [ids2 [At2 Hj]]]].
    destruct (B z n ids At Hi) as [_ [_ Q]]. rewrite (Q j d z2 n2 ids2 Nd1 At2 Hj).
    destruct (To a i _ _ _ Ei At Hi) as [n' [ids' [At' Hi']]]. destruct (To b j _ _ _ Ej At2 Hj) as [n2' [ids2' [At2' Hj']]].
    destruct (P' a c' Nc') as [_ B']. destruct (B' _ _ _ At' Hi') as [_ [_ Q']]. rewrite (Q' b d' _ _ _ Nd2 At2' Hj').
    split; intro K.
    + apply (connected_to g g' Sy f F5); eauto.
    + eapply (connected_from g g' Sy' f F2 F3 F5); eauto.
Qed.
End Rows.
