(** Proofs on parameters that do not matter to the result. *)
From Coq Require Import Permutation.
From Verif Require Import Base BaseFacts ModelCore SpecCore SpecNet CoreLabels CoreProp SpecTuning.
Open Scope Z_scope.

(** *** The net *)
Lemma existsb_in_iff (i : nat) l l' : (forall j, In j l <-> In j l') -> existsb (Nat.eqb i) l = existsb (Nat.eqb i) l'.
Proof.
  intro H. apply eq_true_iff_eq. rewrite !existsb_exists. split; intros [j [I E]]; exists j; (split; [apply H, I|exact E]).
Qed.

Definition same_answer (r r' : res (list nat)) : Prop :=
  match r, r' with
  | Ok l, Ok l' => Permutation l l'
  | Err e, Err e' => e = e'
  | _, _ => False
  end.

Lemma net_loop_same {S} (search search' : S -> res (list nat)) X :
  (forall x, In x X -> same_answer (search x) (search' x)) -> forall i cov cov',
  (forall j, In j cov <-> In j cov') -> same_sets (net_loop search i X cov) (net_loop search' i X cov').
Proof.
  induction X as [|x X IH]; intros H i cov cov' C; simpl.
  - split; [reflexivity|constructor].
  - rewrite <- (existsb_in_iff i cov cov' C). assert (HX : forall y, In y X -> same_answer (search y) (search' y)) by (intros; apply H; right; assumption).
    destruct (existsb (Nat.eqb i) cov); [apply IH; assumption|].
    specialize (H x (or_introl eq_refl)). unfold same_answer in H.
    destruct (search x) as [l|e], (search' x) as [l'|e']; try contradiction; [|subst; split; [reflexivity|constructor]].
    assert (C' : forall j, In j (l ++ cov) <-> In j (l' ++ cov')).
    { intro j. rewrite !in_app_iff, C. split; intros [I|I]; auto; left; [eapply Permutation_in, I; exact H|eapply Permutation_in, I; symmetry; exact H]. }
    destruct (IH HX (Datatypes.S i) _ _ C') as [E F].
    destruct l as [|a l], l' as [|a' l']; [split; assumption|apply Permutation_length in H; discriminate|apply Permutation_length in H; discriminate|].
    split; [exact E|]. simpl. constructor; assumption.
Qed.

Lemma proximity_net_same {S} (fit fit' : list S -> res (S -> res (list nat))) X search search' :
  fit X = Ok search -> fit' X = Ok search' -> (forall x, In x X -> same_answer (search x) (search' x)) ->
  same_sets (proximity_net fit X) (proximity_net fit' X).
Proof. intros E E' H. unfold proximity_net. rewrite E, E'. apply net_loop_same; [exact H|reflexivity]. Qed.

Lemma same_ids (l l' : list nat) : NoDup l -> NoDup l' -> (forall i, In i l <-> In i l') -> Permutation l l'.
Proof. intros. apply NoDup_Permutation; assumption. Qed.

(** *** Mapper on the same sets *)
Lemma F2_nth_perm l l' k s : Forall2 (@Permutation nat) l l' -> nth_error l k = Some s -> exists s', nth_error l' k = Some s' /\ Permutation s s'.
Proof. intros F. revert k. induction F; intros [|k] E; simpl in *; try discriminate; [injection E as ->; eauto|eauto]. Qed.

Lemma perm_positions (l l' : list nat) : Permutation l l' ->
  exists s, Permutation s (seq 0 (length l)) /\ map (nth_error l) s = map Some l'.
Proof.
  intro P. destruct (Permutation_nth_error_bis l l') as [H _]. destruct (H P) as [f [I [B E]]].
  exists (map f (seq 0 (length l))). assert (L := Permutation_length P). split.
  - apply NoDup_Permutation_bis.
    + apply FinFun.Injective_map_NoDup; [exact I|apply seq_NoDup].
    + rewrite map_length. reflexivity.
    + intros j J. apply in_map_iff in J as [i [<- J]]. apply in_seq in J. apply in_seq. split; [lia|]. apply B. lia.
  - rewrite map_map. rewrite (map_ext _ (nth_error l')) by (intro; symmetry; apply E). rewrite L. clear.
    induction l' as [|a l' IH]; [reflexivity|]. simpl. f_equal. rewrite <- seq_shift, map_map. exact IH.
Qed.

Lemma map_nth_some {A} (l : list A) s l' a p : map (nth_error l) s = map Some l' -> nth_error s a = Some p ->
  exists x, nth_error l p = Some x /\ nth_error l' a = Some x.
Proof.
  intros E H. assert (N : nth_error (map (nth_error l) s) a = Some (nth_error l p)) by (rewrite nth_error_map, H; reflexivity).
  rewrite E, nth_error_map in N. destruct (nth_error l' a) as [x|]; [|discriminate]. injection N as N. eauto.
Qed.

Lemma F2_of_ids {S} (X : list S) ids xs p i x : Forall2 (fun j y => nth_error X j = Some y) ids xs ->
  nth_error ids p = Some i -> nth_error X i = Some x -> nth_error xs p = Some x.
Proof. intro F. revert p. induction F; intros [|p] Hi Hx; simpl in *; try discriminate; [congruence|eauto]. Qed.
Lemma F2_points {S} (X : list S) ids s xs ids' : Forall2 (fun j y => nth_error X j = Some y) ids xs ->
  map (nth_error ids) s = map Some ids' ->
  exists xs', Forall2 (fun j y => nth_error X j = Some y) ids' xs' /\ map (nth_error xs) s = map Some xs'.
Proof.
  intro F. revert ids'. induction s as [|p s IH]; intros [|i ids'] E; try discriminate.
  - exists []. split; [constructor|reflexivity].
  - simpl in E. injection E as E1 E2. destruct (IH ids' E2) as [xs' [F' M]].
    assert (exists x, nth_error X i = Some x /\ nth_error xs p = Some x) as [x [Hx Hp]].
    { clear - F E1. revert p E1. induction F; intros [|p] E; simpl in *; try discriminate; [injection E as ->; eauto|eauto]. }
    exists (x :: xs'). split; [constructor; assumption|]. simpl. rewrite Hp, M. reflexivity.
Qed.

Section Same.
Context {S : Type}.
Variable X : list S.
Variable clust : clustering S.
Hypothesis Hfree : order_free clust.

(** Points [i] and [j] are in one cluster of the [k]-th open set. *)
Definition mates (opens : list (list nat)) (k i j : nat) : Prop :=
  exists l, in_cluster X opens clust k l i /\ in_cluster X opens clust k l j.

Lemma local_labels_det opens k ids ids' ls ls' : local_labels X opens clust k ids ls -> local_labels X opens clust k ids' ls' ->
  ids = ids' /\ ls = ls'.
Proof.
  intros [N [xs [F C]]] [N' [xs' [F' C']]]. rewrite N in N'. injection N' as <-.
  assert (xs = xs') by (eapply (Forall2_det (fun j x => nth_error X j = Some x)); [|exact F|exact F']; intros; congruence). subst. rewrite C in C'. injection C' as <-. auto.
Qed.

Lemma one_label opens k l l' i : sets_nodup opens -> in_cluster X opens clust k l i -> in_cluster X opens clust k l' i -> l = l'.
Proof.
  intros Nd [_ [ids [ls [j [L [I A]]]]]] [_ [ids' [ls' [j' [L' [I' A']]]]]].
  destruct (local_labels_det _ _ _ _ _ _ L L') as [<- <-].
  assert (NoDup ids). { destruct L as [N _]. unfold sets_nodup in Nd. rewrite Forall_forall in Nd. apply Nd. eapply nth_error_In, N. }
  assert (j = j') by (eapply NoDup_nth_error; [exact H|apply nth_error_Some; congruence|congruence]). congruence.
Qed.

Lemma local_same opens opens' k ids ls : Forall2 (@Permutation nat) opens opens' -> local_labels X opens clust k ids ls ->
  exists ids' ls' s, local_labels X opens' clust k ids' ls' /\ Permutation s (seq 0 (length ids)) /\ map (nth_error ids) s = map Some ids' /\
    forall a b p q, nth_error s a = Some p -> nth_error s b = Some q -> (together ls p q <-> together ls' a b).
Proof.
  intros F [N [xs [Fx C]]]. destruct (F2_nth_perm _ _ _ _ F N) as [ids' [N' P]].
  destruct (perm_positions _ _ P) as [s [Ps Ms]]. destruct (F2_points X ids s xs ids' Fx Ms) as [xs' [Fx' Mx]].
  assert (Lx : length xs = length ids) by (clear - Fx; induction Fx; simpl; congruence).
  destruct (Hfree k s xs xs' ls) as [ls' [C' T]]; [split; [rewrite Lx; exact Ps|exact Mx]|exact C|].
  exists ids', ls', s. split; [split; [exact N'|exists xs'; auto]|]. auto.
Qed.

Lemma mates_same opens opens' k i j : sets_nodup opens -> Forall2 (@Permutation nat) opens opens' ->
  mates opens k i j -> mates opens' k i j.
Proof.
  intros Nd F [l [[Hl [ids [ls [p [L [Ip Lp]]]]]] [_ [ids2 [ls2 [q [L2 [Iq Lq]]]]]]]].
  destruct (local_labels_det _ _ _ _ _ _ L L2) as [<- <-].
  destruct (local_same _ _ _ _ _ F L) as [ids' [ls' [s [L' [Ps [Ms T]]]]]].
  assert (Hs : forall u y, nth_error ids u = Some y -> exists a, nth_error s a = Some u /\ nth_error ids' a = Some y).
  { intros u y Hu. assert (In u s). { eapply Permutation_in; [symmetry; exact Ps|]. apply in_seq. split; [lia|]. simpl. apply nth_error_Some. congruence. }
    apply In_nth_error in H as [a Ha]. exists a. split; [exact Ha|]. destruct (map_nth_some _ _ _ _ _ Ms Ha) as [x [A B]]. congruence. }
  destruct (Hs p i Ip) as [a [Sa Ia]]. destruct (Hs q j Iq) as [b [Sb Ib]].
  destruct (proj1 (T a b p q Sa Sb)) as [l' [Hl' [Aa Ab]]]; [exists l; auto|].
  exists l'. split; (split; [exact Hl'|]); exists ids', ls'; eauto.
Qed.
End Same.

Lemma F2_perm_sym l l' : Forall2 (@Permutation nat) l l' -> Forall2 (@Permutation nat) l' l.
Proof. induction 1; constructor; [symmetry|]; assumption. Qed.
Lemma F2_perm_nodup l l' : Forall2 (@Permutation nat) l l' -> sets_nodup l -> sets_nodup l'.
Proof.
  induction 1 as [|a b l l' P F IH]; intro H1; [constructor|]. inversion H1; subst. constructor; [eapply Permutation_NoDup; eauto|]. apply IH. assumption.
Qed.

(** Finite choice. *)
Lemma choose_names (R : Z -> Z -> Prop) (L : list Z) : (forall a, In a L -> exists b, R a b) -> exists f, forall a, In a L -> R a (f a).
Proof.
  induction L as [|a L IH]; intro H; [exists (fun z => z); contradiction|].
  destruct IH as [f Hf]; [intros; apply H; right; assumption|]. destruct (H a (or_introl eq_refl)) as [b Hb].
  exists (fun z => if Z.eqb z a then b else f z). intros z Hz. destruct (Z.eqb_spec z a) as [->|Hne]; [exact Hb|].
  destruct Hz as [<-|Hz]; [congruence|]. apply Hf, Hz.
Qed.

Lemma sorted_same_eq (l l' : list nat) : StronglySorted lt l -> StronglySorted lt l' -> (forall i, In i l <-> In i l') -> l = l'.
Proof.
  intros H. revert l'. induction H as [|a l Hl IH Fa]; intros l' H' M.
  - destruct l' as [|b l']; [reflexivity|]. destruct (proj2 (M b)). left. reflexivity.
  - destruct H' as [|b l' Hl' Fb]; [destruct (proj1 (M a)); left; reflexivity|].
    rewrite Forall_forall in Fa, Fb.
    assert (a = b). { destruct (proj1 (M a) (or_introl eq_refl)) as [E|I]; [auto|]. destruct (proj2 (M b) (or_introl eq_refl)) as [E|J]; [auto|].
      specialize (Fa _ J). specialize (Fb _ I). lia. }
    subst b. f_equal. apply IH; [exact Hl'|]. intro i. specialize (M i). simpl in M.
    split; intro I; [destruct (proj1 M (or_intror I)) as [E|J]|destruct (proj2 M (or_intror I)) as [E|J]]; auto.
    + specialize (Fa _ I). lia.
    + specialize (Fb _ I). lia.
Qed.

Lemma labels_ok_inv {S} (X : list S) opens clust out : mapper_labels X opens clust = Ok out ->
  stops opens = None /\ forall k, (k < length (yields opens))%nat -> job_succeeds X (yields opens) clust k.
Proof.
  intro E. unfold mapper_labels in E. apply bind_ok in E as [parts [E _]].
  destruct (run_jobs_ok X clust _ _ _ _ E) as [A [L H]]. split; [exact A|].
  intros k Hk. destruct (nth_error_ex parts k) as [[ids ls] N]; [lia|]. destruct (H k ids ls N) as [N' R]. exists ids, ls. split; assumption.
Qed.

Section Graphs.
Context {S : Type}.
Variable X : list S.
Variable clust : clustering S.
Hypothesis Hfree : order_free clust.
Variables opens opens' : gen (list nat).
Hypothesis Hsame : same_sets opens opens'.
Hypothesis Hnd : sets_nodup (yields opens).

Lemma labels_both out : mapper_labels X opens clust = Ok out -> exists out', mapper_labels X opens' clust = Ok out'.
Proof.
  intro E. destruct Hsame as [Es F].
  assert (St : stops opens = None /\ forall k, (k < length (yields opens))%nat -> job_succeeds X (yields opens) clust k).
  { exact (labels_ok_inv X opens clust out E). }
  destruct St as [St J]. apply labels_total; [congruence|].
  intros k Hk. assert (Lk : (k < length (yields opens))%nat) by (clear - F Hk; revert k Hk; induction F; simpl; intros; [lia|]; destruct k; [lia|]; apply ->Nat.succ_lt_mono; apply IHF; lia).
  destruct (J k Lk) as [ids [ls L]]. destruct (local_same X clust Hfree _ _ _ _ _ F L) as [ids' [ls' [s [L' _]]]].
  exists ids', ls'. exact L'.
Qed.

Lemma Hnd' : sets_nodup (yields opens').
Proof. destruct Hsame as [_ F]. exact (F2_perm_nodup _ _ F Hnd). Qed.

Notation inc := (in_cluster X (yields opens) clust).
Notation inc' := (in_cluster X (yields opens') clust).

(** Which cluster of the second run is which cluster of the first. *)
Definition match_ (k : nat) (l l' : Z) : Prop := exists i, inc k l i /\ inc' k l' i.

Lemma match_ex k l : is_cluster X (yields opens) clust k l -> exists l', match_ k l l'.
Proof.
  intros [i Hi]. destruct Hsame as [_ F].
  destruct (mates_same X clust Hfree _ _ k i i Hnd F) as [l' [A _]]; [exists l; auto|]. exists l', i. auto.
Qed.
Lemma match_ex' k l' : is_cluster X (yields opens') clust k l' -> exists l, match_ k l l'.
Proof.
  intros [i Hi]. destruct Hsame as [_ F].
  destruct (mates_same X clust Hfree _ _ k i i Hnd' (F2_perm_sym _ _ F)) as [l [A _]]; [exists l'; auto|]. exists l, i. auto.
Qed.
Lemma match_points k l l' i : match_ k l l' -> (inc k l i <-> inc' k l' i).
Proof.
  intros [j [A B]]. destruct Hsame as [_ F]. split; intro H.
  - destruct (mates_same X clust Hfree _ _ k i j Hnd F) as [m [C D]]; [exists l; auto|].
    rewrite (one_label X clust _ _ _ _ _ Hnd' B D). exact C.
  - destruct (mates_same X clust Hfree _ _ k i j Hnd' (F2_perm_sym _ _ F)) as [m [C D]]; [exists l'; auto|].
    rewrite (one_label X clust _ _ _ _ _ Hnd A D). exact C.
Qed.
Lemma match_fun k l l1 l2 : match_ k l l1 -> match_ k l l2 -> l1 = l2.
Proof. intros M1 [i [A B]]. apply (one_label X clust _ k l1 l2 i Hnd'); [|exact B]. apply (match_points k l l1 i M1), A. Qed.
Lemma match_inj k l1 l2 l' : match_ k l1 l' -> match_ k l2 l' -> l1 = l2.
Proof. intros M1 [i [A B]]. apply (one_label X clust _ k l1 l2 i Hnd); [|exact A]. apply (match_points k l1 l' i M1), B. Qed.

Lemma attr_unique g z n ids n' ids' : well_formed g -> node_attr g z n ids -> node_attr g z n' ids' -> n = n' /\ ids = ids'.
Proof.
  intros [W _] A B. unfold node_attr in *. assert ((n, ids) = (n', ids')); [|split; congruence].
  revert W A B. generalize (g_nodes g). clear. induction l as [|[a v] l IH]; simpl; intros W A B; [contradiction|].
  inversion W as [|? ? Ni W']; subst. destruct A as [A|A], B as [B|B]; try congruence; [| |apply IH; assumption].
  - injection A as -> ->. exfalso. apply Ni. apply in_map_iff. eexists. split; [|exact B]. reflexivity.
  - injection B as -> ->. exfalso. apply Ni. apply in_map_iff. eexists. split; [|exact A]. reflexivity.
Qed.

Lemma graphs_same g : mapper_graph X opens clust = Ok g -> exists g', mapper_graph X opens' clust = Ok g' /\ same_graph g g'.
Proof.
  intro E. assert (exists out, mapper_labels X opens clust = Ok out) as [out Eo].
  { unfold mapper_graph in E. apply bind_ok in E as [out [Eo _]]. eauto. }
  destruct (labels_both out Eo) as [out' Eo']. destruct (graph_exists X opens' clust out' Eo') as [g' E'].
  exists g'. split; [exact E'|].
  destruct (graph_nodes_are_clusters X opens clust g E Hnd) as [W [name [[_ Inj] [HN HA]]]].
  destruct (graph_nodes_are_clusters X opens' clust g' E' Hnd') as [W' [name' [[_ Inj'] [HN' HA']]]].
  assert (CL : forall k l l', match_ k l l' -> is_cluster X (yields opens) clust k l /\ is_cluster X (yields opens') clust k l').
  { intros k l l' [i [A B]]. split; exists i; assumption. }
  destruct (choose_names (fun a b => exists k l l', match_ k l l' /\ a = name k l /\ b = name' k l') (map fst (g_nodes g))) as [f Hf].
  { intros a Ha. apply HN in Ha as [k [l [C ->]]]. destruct (match_ex k l C) as [l' M]. exists (name' k l'), k, l, l'. auto. }
  assert (Hfn : forall k l l', match_ k l l' -> f (name k l) = name' k l').
  { intros k l l' M. destruct (CL _ _ _ M) as [C C'].
    destruct (Hf (name k l)) as [k2 [l2 [l2' [M2 [E1 E2]]]]]; [apply HN; eauto|].
    destruct (CL _ _ _ M2) as [C2 _]. destruct (Inj k l k2 l2 C C2 E1) as [<- <-].
    rewrite E2, (match_fun k l l2' l' M2 M). reflexivity. }
  assert (Hattr : forall k l l' n ids, match_ k l l' -> (node_attr g (name k l) n ids <-> node_attr g' (name' k l') n ids)).
  { intros k l l' n ids M. destruct (CL _ _ _ M) as [C C'].
    destruct (HA k l C) as [d [A1 [A2 A3]]]. destruct (HA' k l' C') as [d' [B1 [B2 B3]]].
    assert (d = d'). { apply sorted_same_eq; [exact A2|exact B2|]. intro i. rewrite A3, B3. apply match_points, M. } subst d'.
    split; intro N; [destruct (attr_unique g _ _ _ _ _ W A1 N) as [<- <-]|destruct (attr_unique g' _ _ _ _ _ W' B1 N) as [<- <-]]; assumption. }
  assert (Hinj : forall a b, has_node g a -> has_node g b -> f a = f b -> a = b).
  { intros a b Ha Hb Eab. apply HN in Ha as [k [l [C ->]]]. apply HN in Hb as [k2 [l2 [C2 ->]]].
    destruct (match_ex k l C) as [l' M]. destruct (match_ex k2 l2 C2) as [l2' M2].
    rewrite (Hfn _ _ _ M), (Hfn _ _ _ M2) in Eab. destruct (CL _ _ _ M) as [_ C']. destruct (CL _ _ _ M2) as [_ C2'].
    destruct (Inj' k l' k2 l2' C' C2' Eab) as [<- <-]. rewrite (match_inj k l l2 l' M M2). reflexivity. }
  assert (Hat : forall z n ids, has_node g z -> (node_attr g z n ids <-> node_attr g' (f z) n ids)).
  { intros z n ids Hz. apply HN in Hz as [k [l [C ->]]]. destruct (match_ex k l C) as [l' M]. rewrite (Hfn _ _ _ M). apply Hattr, M. }
  exists f. split; [|split; [|split; [exact Hinj|split; [exact Hat|]]]].
  - intros z Hz. apply HN in Hz as [k [l [C ->]]]. destruct (match_ex k l C) as [l' M]. rewrite (Hfn _ _ _ M).
    apply HN'. exists k, l'. split; [apply (CL _ _ _ M)|reflexivity].
  - intros z' Hz. apply HN' in Hz as [k [l' [C ->]]]. destruct (match_ex' k l' C) as [l M].
    exists (name k l). split; [apply HN; exists k, l; split; [apply (CL _ _ _ M)|reflexivity]|]. symmetry. apply Hfn, M.
  - intros a b Ha Hb. rewrite (graph_edges_share_points X opens clust g E Hnd), (graph_edges_share_points X opens' clust g' E' Hnd').
    split; intros [Hne [na [ia [nb [ib [i [A [B I]]]]]]]].
    + split; [intro Ef; apply Hne, Hinj; assumption|]. exists na, ia, nb, ib, i. split; [apply Hat; assumption|]. split; [apply Hat; assumption|exact I].
    + split; [intro Ef; apply Hne; congruence|]. exists na, ia, nb, ib, i. split; [apply Hat; assumption|]. split; [apply Hat; assumption|exact I].
Qed.
End Graphs.

(** *** Connected components *)
Section Components.
Variables g g' : graph.
Hypothesis Hs : forall a b, adjacent g a b -> adjacent g b a /\ has_node g a /\ has_node g b.
Hypothesis Hs' : forall a b, adjacent g' a b -> adjacent g' b a /\ has_node g' a /\ has_node g' b.
Variable f : Z -> Z.
Hypothesis Hon : forall z', has_node g' z' -> exists z, has_node g z /\ z' = f z.
Hypothesis Hinj : forall a b, has_node g a -> has_node g b -> f a = f b -> a = b.
Hypothesis Hadj : forall a b, has_node g a -> has_node g b -> (adjacent g a b <-> adjacent g' (f a) (f b)).

Lemma connected_to a b : has_node g a -> connected g a b -> connected g' (f a) (f b).
Proof.
  intros _ C. induction C as [x y A|x|x y C IH|x y z C1 IH1 C2 IH2].
  - apply rst_step. destruct (Hs _ _ A) as [_ [Hx Hy]]. apply Hadj; assumption.
  - apply rst_refl.
  - apply rst_sym, IH.
  - eapply rst_trans; eassumption.
Qed.
Lemma connected_from u v : connected g' u v -> forall a b, has_node g a -> has_node g b -> u = f a -> v = f b -> connected g a b.
Proof.
  intro C. apply clos_rst_rst1n in C. induction C as [u|u w v A C IH]; intros a b Ha Hb Ea Eb.
  - assert (a = b) by (apply Hinj; congruence). subst. apply rst_refl.
  - assert (A' : adjacent g' u w) by (destruct A as [A|A]; [exact A|apply Hs', A]).
    destruct (Hs' _ _ A') as [_ [_ Hw]]. destruct (Hon _ Hw) as [c [Hc ->]]. subst u.
    eapply rst_trans; [apply rst_step, Hadj; eassumption|]. apply IH; auto.
Qed.
End Components.

Lemma in_nodes_dec g i : (exists z n ids, node_attr g z n ids /\ In i ids) \/ ~ (exists z n ids, node_attr g z n ids /\ In i ids).
Proof.
  unfold node_attr. generalize (g_nodes g). induction l as [|[z [n ids]] l IH]; [right; intros [? [? [? [[] _]]]]|].
  destruct (in_dec Nat.eq_dec i ids) as [I|I]; [left; exists z, n, ids; split; [left; reflexivity|exact I]|].
  destruct IH as [[z' [n' [ids' [A B]]]]|N]; [left; exists z', n', ids'; split; [right; exact A|exact B]|].
  right. intros [z' [n' [ids' [[A|A] B]]]]; [injection A as -> -> ->; contradiction|]. apply N. eauto 6.
Qed.

Section Whole.
Context {S : Type}.
Variable X : list S.
Variable clust : clustering S.
Hypothesis Hfree : order_free clust.
Variables opens opens' : gen (list nat).
Hypothesis Hsame : same_sets opens opens'.
Hypothesis Hnd : sets_nodup (yields opens).

Lemma components_same comps : mapper_connected_components X opens clust = Ok comps ->
  exists comps', mapper_connected_components X opens' clust = Ok comps' /\ same_partition comps comps'.
Proof.
  intro Ec. assert (exists out, mapper_labels X opens clust = Ok out) as [out Eo].
  { unfold mapper_connected_components in Ec. apply bind_ok in Ec as [out [Eo _]]. eauto. }
  destruct (labels_both X clust Hfree opens opens' Hsame out Eo) as [out' Eo'].
  destruct (components_of_graph X opens clust out Eo) as [g [cs [Eg [Ecs [L P]]]]]. rewrite Ec in Ecs. injection Ecs as <-.
  destruct (components_of_graph X opens' clust out' Eo') as [g' [cs' [Eg' [Ecs' [L' P']]]]].
  exists cs'. split; [exact Ecs'|].
  destruct (graphs_same X clust Hfree opens opens' Hsame Hnd g Eg) as [g2 [Eg2 [f [F1 [F2 [F3 [F4 F5]]]]]]].
  rewrite Eg' in Eg2. injection Eg2 as <-.
  pose proof (graph_edges_symmetric X opens clust g Eg) as Sy. pose proof (graph_edges_symmetric X opens' clust g' Eg') as Sy'.
  assert (Nd : forall h z n ids, node_attr h z n ids -> has_node h z).
  { intros h z n ids A. apply in_map_iff. exists (z, (n, ids)). auto. }
  assert (In1 : forall i, (exists z n ids, node_attr g z n ids /\ In i ids) <-> (exists z n ids, node_attr g' z n ids /\ In i ids)).
  { intro i. split; intros [z [n [ids [A I]]]].
    - exists (f z), n, ids. split; [apply F4; eauto|exact I].
    - destruct (F2 z (Nd _ _ _ _ A)) as [a [Ha ->]]. exists a, n, ids. split; [apply F4; assumption|exact I]. }
  assert (Hm : forall i c c', nth_error comps i = Some c -> nth_error cs' i = Some c' -> (c = -1 <-> c' = -1)).
  { intros i c c' N N'. destruct (P i c N) as [A _]. destruct (P' i c' N') as [A' _]. rewrite A, A', In1. reflexivity. }
  split; [congruence|]. split; [exact Hm|].
  intros i j c c' d d' Nc Nc' Nd1 Nd2.
  pose proof (Hm _ _ _ Nc Nc') as M1. pose proof (Hm _ _ _ Nd1 Nd2) as M2.
  destruct (Z.eq_dec c (-1)) as [->|Hc]; [|destruct (Z.eq_dec d (-1)) as [->|Hd]].
  - assert (c' = -1) by (apply M1; reflexivity). subst c'. split; intro Q; symmetry; apply M2; symmetry; exact Q.
  - assert (d' = -1) by (apply M2; reflexivity). subst d'. split; intro Q; [congruence|]. apply M1, Q.
  - destruct (P i c Nc) as [A B]. destruct (P j d Nd1) as [A2 B2].
    assert (W1 : exists z n ids, node_attr g z n ids /\ In i ids).
    { destruct (P' i c' Nc') as [A' _]. destruct (in_nodes_dec g i) as [Y|N]; [exact Y|]. exfalso. apply Hc, A, N. }
    assert (W2 : exists z n ids, node_attr g z n ids /\ In j ids).
    { destruct (in_nodes_dec g j) as [Y|N]; [exact Y|]. exfalso. apply Hd, A2, N. }
    destruct W1 as [z [n [ids [At Hi]]]]. destruct W2 as [z2 [n2 [ids2 [At2 Hj]]]].
    destruct (B z n ids At Hi) as [_ [_ Q]]. rewrite (Q j d z2 n2 ids2 Nd1 At2 Hj).
    assert (At' : node_attr g' (f z) n ids) by (apply F4; eauto). assert (At2' : node_attr g' (f z2) n2 ids2) by (apply F4; eauto).
    destruct (P' i c' Nc') as [_ B']. destruct (B' _ _ _ At' Hi) as [_ [_ Q']]. rewrite (Q' j d' _ _ _ Nd2 At2' Hj).
    split; intro K.
    + apply (connected_to g g' Sy f F5); eauto.
    + eapply (connected_from g g' Sy' f F2 F3 F5); eauto.
Qed.
End Whole.
