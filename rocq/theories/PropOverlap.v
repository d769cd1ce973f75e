(** C65: how often the sets of a cubical cover overlap, and the warning about it. *)
From Coq Require Import String QArith Reals Lra Lia Sorted.
From Verif Require Import Base BaseFacts ModelArith ModelCore SpecCore SpecMetric ModelCover SpecCover SpecCubical CubicalFacts
  SpecOverlap OverlapFacts ModelWarn.
From Verif Require PropCover.
Import PropCover.
Open Scope R_scope.

(** ** C65: both cubical covers yield the hypercubes of different grid cells, each
    of which has a point. *)
Theorem C65_different_cells : forall m eps X lo hi (c : cubical RA) ov alg,
  cubical_input m eps X lo hi c ov -> 0 < ov < 1 -> alg <> OtherAlgorithm ->
  let n := cu_n_intervals RA c in let p := grid_pos n eps lo hi in
  exists cells, cubes_of m n (1 / (2 - 2 * ov)) p X cells (yields (cubical_apply RA eps alg c X)).
Proof.
  intros m eps X lo hi c ov alg I H Ha n p. destruct alg; [| |contradiction].
  - destruct (C29_proximity_net m eps X lo hi c ov I H) as [centers [_ [F Sep]]].
    fold n p in F. set (ys := yields (cubical_apply RA eps Proximity c X)) in *. set (r := 1 / (2 - 2 * ov)) in *.
    pose (At := fun j k => exists i s x, nth_error centers j = Some i /\ nth_error ys j = Some s /\
      nth_error X i = Some x /\ In i s /\ in_cell m n p x k /\ cube_ids m r p X k s).
    destruct (choose At (seq 0 (length ys))) as [cells G].
    { intros j Ij. apply in_seq in Ij. destruct (nth_error ys j) as [s|] eqn:E; [|apply nth_error_None in E; lia].
      destruct (F2_nth _ _ _ _ _ F E) as [i [Ei [x [k [Q1 [Q2 [Q3 Q4]]]]]]]. exists k, i, s, x. auto 8. }
    assert (Lc : length cells = length ys) by (rewrite <- (F2_length _ _ _ G); apply seq_length).
    assert (Low : forall a b k, (b < a)%nat -> At a k -> At b k -> False).
    { intros a b k L [i [s [x [A1 [A2 [A3 [A4 [A5 [_ A6]]]]]]]]] [i' [s' [x' [B1 [B2 [B3 [B4 [B5 [_ B6]]]]]]]]].
      apply (Sep a b i s' L A1 B2). apply B6. apply A6. exact A4. }
    exists cells. split.
    + apply (choice_nodup _ _ _ G (seq_NoDup _ _)). intros a b k _ _ Qa Qb.
      destruct (Nat.lt_trichotomy a b) as [L|[L|L]]; [exfalso; exact (Low b a k L Qb Qa)|exact L|exfalso; exact (Low a b k L Qa Qb)].
    + apply F2_of_nth; [exact Lc|]. intros j k s Ek Es. destruct (F2_nth _ _ _ _ _ G Ek) as [j' [Ej [i [s' [x [_ [A2 [A3 [_ [A5 A6]]]]]]]]]].
      assert (j' = j).
      { assert (Lj : (j < length ys)%nat) by exact (nth_error_lt _ _ _ Es).
        apply nth_error_nth with (d := 0%nat) in Ej. rewrite seq_nth in Ej by exact Lj. lia. }
      subst j'. assert (s' = s) by congruence. subst s'. split; [exists x; split; [exact (nth_error_In _ _ A3)|exact A5]|exact A6].
  - destruct (C30_standard_cells m eps X lo hi c ov I H) as [_ [cells [N [O [F _]]]]]. fold n p in O, F. exists cells. split; [exact N|].
    assert (Sub : forall k, In k cells -> exists x, In x X /\ in_cell m n p x k) by (intros k Ik; apply O, Ik). clear - F Sub.
    induction F as [|k s l l' [_ Q] F IH]; constructor.
    + split; [apply Sub; left; reflexivity|exact Q].
    + apply IH. intros k' Ik. apply Sub. right. exact Ik.
Qed.
Print Assumptions C65_different_cells.

(** ** C65: a point is in at most [K ^ m] of the sets, where [K] is an integer at
    least as large as the side [1 / (1 - ov)] of the hypercubes, in grid cells. *)
Lemma side ov K : 0 < ov < 1 -> 1 / (1 - ov) <= INR K -> 2 * (1 / (2 - 2 * ov)) <= INR K /\ 0 < 1 / (2 - 2 * ov).
Proof.
  intros H HK. assert (E : 2 * (1 / (2 - 2 * ov)) = 1 / (1 - ov)) by (field; lra). rewrite E. split; [exact HK|].
  apply Rdiv_lt_0_compat; lra.
Qed.
Theorem C65_overlaps : forall m eps X lo hi (c : cubical RA) ov alg K,
  cubical_input m eps X lo hi c ov -> 0 < ov < 1 -> alg <> OtherAlgorithm -> 1 / (1 - ov) <= INR K ->
  forall i js, sets_with (yields (cubical_apply RA eps alg c X)) i js -> (length js <= K ^ m)%nat.
Proof.
  intros m eps X lo hi c ov alg K I H Ha HK i js Hj. destruct (C65_different_cells m eps X lo hi c ov alg I H Ha) as [cells C].
  exact (sets_count _ _ _ _ _ _ _ K C (proj1 (side ov K H HK)) i js Hj).
Qed.
Print Assumptions C65_overlaps.

(** ** C65: so with [overlap_frac] at most 1/2, in particular by default, in at most [2 ^ m]. *)
Theorem C65_at_most_half : forall m eps X lo hi (c : cubical RA) ov alg,
  cubical_input m eps X lo hi c ov -> 0 < ov <= 1 / 2 -> alg <> OtherAlgorithm ->
  forall i js, sets_with (yields (cubical_apply RA eps alg c X)) i js -> (length js <= 2 ^ m)%nat.
Proof.
  intros m eps X lo hi c ov alg I H Ha. apply (C65_overlaps m eps X lo hi c ov alg 2 I); [lra|exact Ha|].
  simpl. apply (Rmult_le_reg_r (1 - ov)); [lra|]. unfold Rdiv. rewrite Rmult_assoc, Rinv_l by lra. lra.
Qed.
Print Assumptions C65_at_most_half.
Theorem C65_default : forall m eps X lo hi (c : cubical RA) ov alg,
  cubical_input m eps X lo hi c ov -> cu_overlap_frac RA c = None -> alg <> OtherAlgorithm ->
  forall i js, sets_with (yields (cubical_apply RA eps alg c X)) i js -> (length js <= 2 ^ m)%nat.
Proof.
  intros m eps X lo hi c ov alg I D Ha. apply (C65_at_most_half m eps X lo hi c ov alg I); [|exact Ha].
  pose proof (ci_overlap _ _ _ _ _ _ _ I) as O. rewrite D in O. destruct O as [O _]. lra.
Qed.
Print Assumptions C65_default.

(** ** C65: a point of the Mapper run has at most that many labels. *)
Theorem C65_labels : forall m eps Y lo hi (c : cubical RA) ov alg K,
  cubical_input m eps Y lo hi c ov -> 0 < ov < 1 -> alg <> OtherAlgorithm -> 1 / (1 - ov) <= INR K ->
  forall (T : Type) (X : list T) clust out, mapper_labels X (cubical_apply RA eps alg c Y) clust = Ok out ->
  Forall (fun lbls => (length lbls <= K ^ m)%nat) out.
Proof.
  intros m eps Y lo hi c ov alg K I H Ha HK T X clust out E.
  destruct (C65_different_cells m eps Y lo hi c ov alg I H Ha) as [cells C].
  apply Forall_forall. intros lbls In. apply In_nth_error in In. destruct In as [i Ei].
  destruct (C29_cubical_covers m eps Y lo hi c ov alg I H Ha) as [St _].
  exact (labels_count _ _ _ _ _ _ _ K C (proj1 (side ov K H HK)) X clust out i lbls _ St eq_refl E Ei).
Qed.
Print Assumptions C65_labels.

(** ** C65: adjacent nodes of the Mapper graph come from different cells that are
    less than [K] apart along every axis: neighbouring cells if [overlap_frac <= 1/2]. *)
Theorem C65_edges : forall m eps Y lo hi (c : cubical RA) ov alg K,
  cubical_input m eps Y lo hi c ov -> 0 < ov < 1 -> alg <> OtherAlgorithm -> 1 / (1 - ov) <= INR K ->
  let n := cu_n_intervals RA c in let p := grid_pos n eps lo hi in let opens := yields (cubical_apply RA eps alg c Y) in
  forall (T : Type) (X : list T) clust g, mapper_graph X (cubical_apply RA eps alg c Y) clust = Ok g ->
  exists cells name, cubes_of m n (1 / (2 - 2 * ov)) p Y cells opens /\ names_clusters X opens clust name /\
    (forall z, has_node g z <-> exists k l, is_cluster X opens clust k l /\ z = name k l) /\
    forall a b, adjacent g a b -> exists k l k' l' c c',
      is_cluster X opens clust k l /\ is_cluster X opens clust k' l' /\ a = name k l /\ b = name k' l' /\
      nth_error cells k = Some c /\ nth_error cells k' = Some c' /\ c <> c' /\ near m K c c'.
Proof.
  intros m eps Y lo hi c ov alg K I H Ha HK n p opens T X clust g E.
  destruct (C65_different_cells m eps Y lo hi c ov alg I H Ha) as [cells C]. fold n p in C.
  destruct (edges_near _ _ _ _ _ _ _ K C (proj1 (side ov K H HK)) X clust _ g eq_refl E) as [_ [name [N1 [N2 N3]]]].
  exists cells, name. split; [exact C|]. split; [exact N1|]. split; [exact N2|]. intros a b Ab.
  destruct (N3 a b Ab) as [k [l [k' [l' [c1 [c2 [Q1 [Q2 [Q3 [Q4 [Q5 [Q6 [_ [_ [Q7 Q8]]]]]]]]]]]]]]].
  exists k, l, k', l', c1, c2. auto 10.
Qed.
Print Assumptions C65_edges.

(** ** C65: when every set is one cluster, a node has fewer than [(2 K - 1) ^ m]
    neighbours: at most two for one interval axis and [overlap_frac <= 1/2]. *)
Theorem C65_degree : forall m eps Y lo hi (c : cubical RA) ov alg K,
  cubical_input m eps Y lo hi c ov -> 0 < ov < 1 -> alg <> OtherAlgorithm -> 1 / (1 - ov) <= INR K ->
  forall (T : Type) (X : list T) g,
  mapper_graph X (cubical_apply RA eps alg c Y) (fun _ => trivial_clustering) = Ok g ->
  forall a nb, In (a, nb) (g_adj g) -> (length nb < (2 * K - 1) ^ m)%nat.
Proof.
  intros m eps Y lo hi c ov alg K I H Ha HK T X g E.
  destruct (C65_different_cells m eps Y lo hi c ov alg I H Ha) as [cells C]. destruct (side ov K H HK) as [S1 S2].
  apply (degree_count _ _ _ _ _ _ _ K C S1 X (fun _ => trivial_clustering) _ g S2 eq_refl E).
  intros k l l' [i [_ [ids [lbls [j [[_ [xs [_ L1]]] [_ L2]]]]]]] [i' [_ [ids' [lbls' [j' [[_ [xs' [_ L1']]] [_ L2']]]]]]].
  assert (Z0 : forall (zs : list T) ls q w, trivial_clustering zs = Ok ls -> nth_error ls q = Some w -> w = 0%Z).
  { intros zs ls q w R1 R2. injection R1 as <-. apply nth_error_In in R2. apply in_map_iff in R2. destruct R2 as [_ [<- _]]. reflexivity. }
  rewrite (Z0 xs lbls j l L1 L2), (Z0 xs' lbls' j' l' L1' L2'). reflexivity.
Qed.
Print Assumptions C65_degree.
Theorem C65_lines : forall eps Y lo hi (c : cubical RA) ov alg,
  cubical_input 1 eps Y lo hi c ov -> 0 < ov <= 1 / 2 -> alg <> OtherAlgorithm ->
  forall (T : Type) (X : list T) g,
  mapper_graph X (cubical_apply RA eps alg c Y) (fun _ => trivial_clustering) = Ok g ->
  forall a nb, In (a, nb) (g_adj g) -> (length nb <= 2)%nat.
Proof.
  intros eps Y lo hi c ov alg I H Ha T X g E a nb In.
  assert (L : (length nb < (2 * 2 - 1) ^ 1)%nat).
  { apply (C65_degree 1 eps Y lo hi c ov alg 2 I) with (X := X) (g := g) (a := a); [lra|exact Ha| |exact E|exact In].
    simpl. apply (Rmult_le_reg_r (1 - ov)); [lra|]. unfold Rdiv. rewrite Rmult_assoc, Rinv_l by lra. lra. }
  simpl in L. lia.
Qed.
Print Assumptions C65_lines.

(** Non-vacuity: C28_hypotheses_met (three points, overlap 1/2). A run: the second point is in two sets. *)
Example C65_runs :
  yields (cubical_apply QA (1 # 1000)%Q Standard (demo_q (Some (1 # 2)%Q)) [[0]; [11 # 10]; [3 # 2]; [3]]%Q) = [[3]; [1; 2]; [0; 1]]%nat.
Proof. vm_compute. reflexivity. Qed.

(** ** C65: false for every [overlap_frac] above 1/2: three intervals share a point. *)
Definition three : list (list R) := [[0]; [3 / 2]; [3]].
Theorem C65_above_half_refuted : forall eps ov, 0 <= eps <= 1 -> 1 / 2 < ov < 1 ->
  exists X lo hi (c : cubical RA), cubical_input 1 eps X lo hi c ov /\
    exists js, sets_with (yields (cubical_apply RA eps Standard c X)) 1 js /\ length js = 3%nat.
Proof.
  intros eps ov He Ho. exists three, (fun _ => 0), (fun _ => 3), (@mkcub RA 3 (Some ov) tp_flat 1 None).
  assert (I : cubical_input 1 eps three (fun _ => 0) (fun _ => 3) (@mkcub RA 3 (Some ov) tp_flat 1 None) ov).
  { split; auto; try (simpl; lia); try discriminate.
    - repeat constructor.
    - intros j Hj. assert (j = 0)%nat by lia. subst j. split; [|split].
      + exists [0]. split; [left|]; reflexivity.
      + exists [3]. split; [right; right; left|]; reflexivity.
      + intros x Hx. simpl in Hx. destruct Hx as [<-|[<-|[<-|[]]]]; unfold coord; simpl; lra.
    - reflexivity. }
  split; [exact I|].
  destruct (C30_standard_cells 1 eps three _ _ _ ov I) as [_ [cells [N [O [F _]]]]]; [lra|].
  cbn [cu_n_intervals] in O, F. set (ys := yields _) in *. set (r := 1 / (2 - 2 * ov)) in *.
  set (p := grid_pos 3 eps (fun _ => 0) (fun _ => 3)) in *.
  assert (Ep : forall j v, p j v = v).
  { intros j v. unfold p, grid_pos. destruct (Rle_dec (3 - 0) eps); [lra|field]. }
  assert (R1 : 1 < r).
  { unfold r. apply (Rmult_lt_reg_r (2 - 2 * ov)); [lra|]. unfold Rdiv. rewrite Rmult_assoc, Rinv_l by lra. lra. }
  assert (Cell : forall z x, In [x] three -> cell_number 3 x z -> In [z] cells).
  { intros z x Ix [Z1 [Z2 Z3]]. apply O. exists [x]. split; [exact Ix|]. split; [reflexivity|]. intros j Hj. assert (j = 0)%nat by lia. subst j.
    cbn [nth coord]. unfold coord. cbn [nth]. rewrite Ep. split; [exact Z1|]. split; [exact Z2|exact Z3]. }
  assert (Set_ : forall z : Z, In [z] cells -> Rabs (3 / 2 - (IZR z + 1 / 2)) <= 1 ->
            exists j s, nth_error cells j = Some [z] /\ nth_error ys j = Some s /\ In 1%nat s).
  { intros z Iz B. apply In_nth_error in Iz. destruct Iz as [j Ej]. destruct (F2_nth_l _ _ _ _ _ F Ej) as [s [Es [_ [_ Q]]]].
    exists j, s. split; [exact Ej|]. split; [exact Es|]. apply Q. exists [3 / 2]. split; [reflexivity|].
    intros i Hi. assert (i = 0)%nat by lia. subst i. unfold coord. cbn [nth]. rewrite Ep. lra. }
  destruct (Set_ 0%Z) as [j0 [s0 [A0 [B0 C0]]]].
  { apply (Cell _ 0); [left; reflexivity|]. split; [lia|]. split; [lra|]. intros _. lra. }
  { rewrite Rabs_right; lra. }
  destruct (Set_ 1%Z) as [j1 [s1 [A1 [B1 C1]]]].
  { apply (Cell _ (3 / 2)); [right; left; reflexivity|]. split; [lia|]. split; [lra|]. intros _. lra. }
  { rewrite Rabs_right; lra. }
  destruct (Set_ 2%Z) as [j2 [s2 [A2 [B2 C2]]]].
  { apply (Cell _ 3); [right; right; left; reflexivity|]. split; [lia|]. split; [lra|]. intro; lia. }
  { rewrite Rabs_left1; lra. }
  exists [j0; j1; j2]. split; [|reflexivity]. split.
  - assert (j0 <> j1) by (intros ->; congruence). assert (j0 <> j2) by (intros ->; congruence). assert (j1 <> j2) by (intros ->; congruence).
    constructor; [intros [Q|[Q|[]]]; congruence|]. constructor; [intros [Q|[]]; congruence|]. constructor; [intros []|constructor].
  - intros j [<-|[<-|[<-|[]]]]; [exists s0|exists s1|exists s2]; auto.
Qed.
Print Assumptions C65_above_half_refuted.

(** ** C65: [fit] warns exactly when [overlap_frac] is above 1/2; by default never.
    A fraction that is not positive is rejected without a warning. Showing or dropping the warning changes nothing else, raising it ends [fit]. *)
Lemma half_RA : half RA = / 2.
Proof. unfold half. simpl. lra. Qed.
Theorem C65_warning : forall m eps X lo hi (c : cubical RA) ov f,
  cubical_input m eps X lo hi c ov ->
  (ov <= 0 -> cubical_fit_warn RA eps f c X = ([], Err ValueError)) /\
  (0 < ov <= 1 / 2 -> cubical_fit_warn RA eps f c X = ([], cubical_fit RA eps c X)) /\
  (1 / 2 < ov -> cubical_fit_warn RA eps f c X =
     match f with
     | Show => ([overlap_message], cubical_fit RA eps c X)
     | Drop => ([], cubical_fit RA eps c X)
     | Raise => ([], Err user_warning)
     end).
Proof.
  intros m eps X lo hi c ov f [M _ _ Rows Ne _ Ov _ _]. unfold cubical_fit_warn. destruct X as [|x X]; [contradiction|].
  assert (E : match cu_overlap_frac RA c with None => get_overlap_frac RA (length (hd [] (x :: X))) (half RA) | Some o => Ok o end = Ok ov).
  { destruct (cu_overlap_frac RA c) as [o|]; cbn [overlap_is] in Ov; [rewrite Ov; reflexivity|].
    simpl hd. inversion Rows as [|? ? Lx _]; subst. rewrite half_RA. replace (/ 2) with (1 / 2) by lra.
    apply default_overlap_computed; assumption. }
  match goal with |- context [match ?M with Ok _ => _ | Err _ => _ end] => replace M with (@Ok R ov) by (symmetry; exact E) end.
  change (zero RA) with 0. change (le_b RA ov 0) with (Rleb ov 0). change (lt_b RA (half RA) ov) with (Rltb (half RA) ov).
  rewrite half_RA. unfold Rleb, Rltb. destruct (Rle_dec ov 0) as [Z0|Z0]; [split; [reflexivity|split; intro; lra]|]. split; [intro; lra|]. split; intro K; destruct (Rlt_dec (/ 2) ov); try lra; [reflexivity|].
  destruct f; reflexivity.
Qed.
Print Assumptions C65_warning.
Theorem C65_default_silent : forall m eps X lo hi (c : cubical RA) ov f,
  cubical_input m eps X lo hi c ov -> cu_overlap_frac RA c = None ->
  cubical_fit_warn RA eps f c X = ([], cubical_fit RA eps c X).
Proof.
  intros m eps X lo hi c ov f I D. pose proof (ci_overlap _ _ _ _ _ _ _ I) as O. rewrite D in O. destruct O as [O _].
  apply (C65_warning m eps X lo hi c ov f I); lra.
Qed.
Print Assumptions C65_default_silent.

(** Runs on rationals: a path for overlap 1/2, a triangle and a warning for overlap 3/5. *)
Definition line : list (list Q) := [[0]; [1 # 2]; [5 # 4]; [3 # 2]; [7 # 4]; [5 # 2]; [3]]%Q.
Definition neighbours (ov : Q) : option (list (Z * list Z)) :=
  match mapper_graph line (cubical_apply QA (1 # 1000)%Q Standard (demo_q (Some ov)) line) (fun _ => trivial_clustering) with
  | Ok g => Some (g_adj g) | Err _ => None end.
Example C65_line_runs :
  neighbours (1 # 2)%Q = Some [(2, [1]); (1, [2; 0]); (0, [1])]%Z /\
  neighbours (3 # 5)%Q = Some [(2, [1; 0]); (1, [2; 0]); (0, [1; 2])]%Z /\
  fst (cubical_fit_warn QA (1 # 1000)%Q Show (demo_q (Some (1 # 2)%Q)) line) = [] /\
  fst (cubical_fit_warn QA (1 # 1000)%Q Show (demo_q (Some (3 # 5)%Q)) line) = [overlap_message].
Proof. repeat split; vm_compute; reflexivity. Qed.
