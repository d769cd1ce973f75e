(** C67: components, chains of shared clusters, and gaps in the data. *)
From Coq Require Import String Reals Lra Lia ZArith.
From Verif Require Import Base BaseFacts ModelArith ModelCore SpecCore SpecMetric ModelVPTree ModelCover SpecCover SpecCubical SpecGaps GapsFacts
  CoreProp ModelObjects SpecObjects ModelValidate ModelLearn SpecLearn.
From Verif Require PropCover PropLearn.
Import PropCover.
Open Scope Z_scope.

(** ** C67: two points get the same component, other than -1, exactly if a chain of
    points leads from one to the other with neighbours in a common cluster. *)
Theorem C67_components_are_chains :
  forall (S : Type) (X : list S) (opens : gen (list nat)) (clust : clustering S) comps,
  mapper_connected_components X opens clust = Ok comps ->
  length comps = length X /\
  forall i ci, nth_error comps i = Some ci ->
    (ci = -1 <-> ~ exists k l, in_cluster X (yields opens) clust k l i) /\
    forall j cj, nth_error comps j = Some cj ->
      (ci = cj /\ ci <> -1 <-> clos_trans nat (share_cluster X (yields opens) clust) i j).
Proof. exact @components_chain. Qed.
Print Assumptions C67_components_are_chains.

(** ** C67: so do the labels of MapperClustering. *)
Theorem C67_clustering_labels : forall (F O : Type) (is_nan is_inf : F -> bool) (to_float : O -> res F) classes beh c_tcover c_tclust c_failsafe,
  classes_ok classes beh c_tcover c_tclust c_failsafe ->
  forall h rank m cov c lim X y h',
  heap_ok classes h rank -> made classes h -> mapper_clustering_of is_nan is_inf to_float classes beh h m cov c -> (rank m + 4 < lim)%nat ->
  run (mapper_clustering_fit is_nan is_inf to_float classes beh c_tcover c_tclust lim m X y) h = (h', Ok tt) ->
  exists X' y' rs lbls, validate is_nan is_inf to_float X (match y with None => X | Some y' => y' end) = Ok (X', y') /\ rows X' = Ok rs /\
    attr h' m "labels_" = Some (VLabels lbls) /\ length lbls = length rs /\
    forall i li j lj, nth_error lbls i = Some li -> nth_error lbls j = Some lj ->
      (li = lj /\ li <> -1 <-> clos_trans nat (share_cluster rs (yields (cov y')) (fun _ => c)) i j).
Proof.
  intros F O is_nan is_inf to_float classes beh c1 c2 c3 CO h rank m cov c lim X y h' W M Mp L E.
  destruct (PropLearn.C40_fit_stores_components F O is_nan is_inf to_float classes beh c1 c2 c3 CO h rank m cov c lim X y W M Mp L)
    as [l [h2 [r [E2 [Fl Hr]]]]]. rewrite E in E2. injection E2 as <- <-.
  unfold fits_labels in Fl. destruct l as [lb|e]; [|discriminate Hr]. destruct Hr as [_ Ha].
  destruct (validate is_nan is_inf to_float X _) as [[X' y']|e]; [|discriminate]. exists X', y'.
  destruct (rows X') as [rs|e] eqn:R; [|destruct Fl; discriminate]. exists rs, lb.
  symmetry in Fl. destruct (components_chain _ _ _ _ Fl) as [Ln K].
  split; [reflexivity|]. split; [reflexivity|]. split; [exact Ha|]. split; [exact Ln|].
  intros i li j lj Hi Hj. apply (K i li Hi); exact Hj.
Qed.
Print Assumptions C67_clustering_labels.

(** ** C67: with BallCover, points of the same component are joined by a walk along
    points of the lens with steps shorter than the radius. The metric may be any
    function, the comparisons any comparisons. *)
Theorem C67_ball_walk :
  forall (S T D : Type) (X : list S) (Y : list T) (clust : clustering S) (metric : T -> T -> D) leb ltb gap zero (c : ball_cover D) comps,
  mapper_connected_components X (ball_apply leb ltb gap zero metric c Y) clust = Ok comps ->
  forall i j k, nth_error comps i = Some k -> nth_error comps j = Some k -> k <> -1 ->
  walk (fun x y => ltb (metric x y) (bc_radius c) = true) Y i j.
Proof.
  intros S T D X Y clust metric leb ltb gap zero c comps H i j k Hi Hj N.
  apply (components_related X _ clust _ comps H) with (c := k); [| |exact Hi|exact Hj|exact N].
  { intros a b d A B. eapply rst_trans; eauto. }
  clear. intros s i j Is Ii Ij. destruct (ball_apply_found metric leb ltb gap zero c Y s Is) as [a [x [Ha P]]].
  assert (G : forall b, In b s -> walk (fun x y => ltb (metric x y) (bc_radius c) = true) Y a b).
  { intros b Ib. destruct (P b Ib) as [y [Hy [Q|Q]]]; [apply rst_step|apply rst_sym, rst_step].
    - exists x, y. auto.
    - exists y, x. auto. }
  eapply rst_trans; [apply rst_sym, G, Ii|apply G, Ij].
Qed.
Print Assumptions C67_ball_walk.

(** ** C67: a group of points whose distances to all others are at least the radius
    is never joined to them, whatever the clustering does. *)
Theorem C67_ball_gaps :
  forall (S T D : Type) (X : list S) (Y : list T) (clust : clustering S) (metric : T -> T -> D) leb ltb gap zero (c : ball_cover D) comps
    (group : T -> bool),
  mapper_connected_components X (ball_apply leb ltb gap zero metric c Y) clust = Ok comps ->
  (forall x y, In x Y -> In y Y -> group x <> group y -> ltb (metric x y) (bc_radius c) = false) ->
  forall i j k x y, nth_error comps i = Some k -> nth_error comps j = Some k -> k <> -1 ->
  nth_error Y i = Some x -> nth_error Y j = Some y -> group x = group y.
Proof.
  intros S T D X Y clust metric leb ltb gap zero c comps group H Far i j k x y Hi Hj N Hx Hy.
  pose proof (C67_ball_walk S T D X Y clust metric leb ltb gap zero c comps H i j k Hi Hj N) as Wk. clear Hi Hj N H.
  assert (G : option_map group (nth_error Y i) = option_map group (nth_error Y j)).
  { clear x y Hx Hy. induction Wk as [i j [x [y [Hx [Hy C]]]]|i|i j _ IH|i m j _ IH1 _ IH2]; [|reflexivity|congruence|congruence].
    rewrite Hx, Hy. cbn. f_equal. destruct (Bool.bool_dec (group x) (group y)) as [E|E]; [exact E|]. exfalso.
    rewrite (Far x y (nth_error_In _ _ Hx) (nth_error_In _ _ Hy) E) in C. discriminate. }
  rewrite Hx, Hy in G. injection G as ->. reflexivity.
Qed.
Print Assumptions C67_ball_gaps.

(** ** C67: with the cubical covers, the steps of the walk are shorter than the side
    of a hypercube, along every column. *)
Definition cell_width (n : Z) (eps : R) (lo hi : nat -> R) (j : nat) : R :=
  if Rle_dec (hi j - lo j) eps then 1%R else ((hi j - lo j) / IZR n)%R.

Lemma grid_pos_diff n eps lo hi j a b : (0 <= eps)%R -> (1 <= n) ->
  ((grid_pos n eps lo hi j a - grid_pos n eps lo hi j b) * cell_width n eps lo hi j = a - b)%R.
Proof.
  intros He Hn. unfold grid_pos, cell_width. destruct (Rle_dec (hi j - lo j) eps) as [L|L]; [ring|].
  apply IZR_le in Hn. field. split; lra.
Qed.

Lemma cell_width_pos n eps lo hi j : (0 <= eps)%R -> (1 <= n) -> (0 < cell_width n eps lo hi j)%R.
Proof.
  intros He Hn. unfold cell_width. destruct (Rle_dec (hi j - lo j) eps) as [L|L]; [lra|].
  apply IZR_le in Hn. apply Rdiv_lt_0_compat; lra.
Qed.

Theorem C67_cubical_walk :
  forall (S : Type) (X : list S) (clust : clustering S) m eps (Y : list (list R)) lo hi (c : cubical RA) ov alg comps,
  cubical_input m eps Y lo hi c ov -> (0 < ov < 1)%R -> alg <> OtherAlgorithm ->
  mapper_connected_components X (cubical_apply RA eps alg c Y) clust = Ok comps ->
  forall i j k, nth_error comps i = Some k -> nth_error comps j = Some k -> k <> -1 ->
  walk (fun x y => forall a, (a < m)%nat ->
          (Rabs (coord x a - coord y a) < cell_width (cu_n_intervals RA c) eps lo hi a / (1 - ov))%R) Y i j.
Proof.
  intros S X clust m eps Y lo hi c ov alg comps I Ho Ha H i j k Hi Hj N.
  destruct (C29_cubical_covers m eps Y lo hi c ov alg I Ho Ha) as [_ [_ Cv]].
  apply (components_related X _ clust _ comps H) with (c := k); [| |exact Hi|exact Hj|exact N].
  { intros a b d A B. eapply rst_trans; eauto. }
  clear Hi Hj N i j k. intros s i j Is Ii Ij. destruct (Cv s Is) as [_ [_ [k [_ [_ [_ Ids]]]]]].
  apply Ids in Ii. apply Ids in Ij. destruct Ii as [x [Hx Cx]], Ij as [y [Hy Cy]].
  apply rst_step. exists x, y. split; [exact Hx|]. split; [exact Hy|]. intros a La. specialize (Cx a La). specialize (Cy a La). cbv beta in *.
  pose proof (cell_width_pos (cu_n_intervals RA c) eps lo hi a (proj1 (ci_eps _ _ _ _ _ _ _ I)) (ci_n _ _ _ _ _ _ _ I)) as Wp.
  rewrite <- (grid_pos_diff (cu_n_intervals RA c) eps lo hi a) by (apply I).
  set (w := cell_width _ _ _ _ _) in *. set (px := grid_pos _ _ _ _ _ _) in *. set (py := grid_pos _ _ _ _ _ (coord y a)) in *.
  rewrite Rabs_mult, (Rabs_pos_eq w) by lra. unfold Rdiv. rewrite (Rmult_comm w). apply Rmult_lt_compat_r; [exact Wp|].
  replace (/ (1 - ov))%R with (1 / (2 - 2 * ov) + 1 / (2 - 2 * ov))%R by (field; lra).
  apply Rabs_def2 in Cx. apply Rabs_def2 in Cy. apply Rabs_def1; lra.
Qed.
Print Assumptions C67_cubical_walk.

(** ** C67: with TrivialCover, the components are the clusters of the clustering. *)
Theorem C67_trivial_cover :
  forall (S : Type) (X : list S) (clust : clustering S) comps lbls,
  mapper_connected_components X (trivial_cover X) clust = Ok comps -> X <> [] -> clust 0%nat X = Ok lbls ->
  length lbls = length X ->
  forall i ci li, nth_error comps i = Some ci -> nth_error lbls i = Some li ->
    (ci = -1 <-> li < 0) /\
    forall j cj lj, nth_error comps j = Some cj -> nth_error lbls j = Some lj -> ci <> -1 -> (ci = cj <-> li = lj).
Proof.
  intros S X clust comps lbls H Ne Hc Hl.
  destruct (trivial_cover_sets X) as [_ [_ Y]]. specialize (Y Ne).
  assert (In_iff : forall k l i li, nth_error lbls i = Some li -> (in_cluster X (yields (trivial_cover X)) clust k l i <-> k = 0%nat /\ l = li /\ 0 <= li)).
  { intros k l i li Hi. rewrite Y. unfold in_cluster, local_labels.
    assert (Sel : forall n (Z : list S) xs, (forall a, nth_error Z a = nth_error X (n + a)%nat) -> (length Z + n = length X)%nat ->
       Forall2 (fun j x => nth_error X j = Some x) (seq n (length Z)) xs -> xs = Z).
    { intros n Zs. revert n. induction Zs as [|z Zs IH]; intros n xs E L Fa; inversion Fa as [|a b u v P Q]; subst; [reflexivity|].
      f_equal; [|apply (IH (Datatypes.S n)); auto].
      - specialize (E 0%nat). rewrite Nat.add_0_r, P in E. injection E as ->. reflexivity.
      - intro a. specialize (E (Datatypes.S a)). simpl in E. rewrite E. f_equal. lia.
      - cbn in L. lia. }
    assert (Self : forall n (Z : list S), (forall a, nth_error Z a = nth_error X (n + a)%nat) -> (length Z + n = length X)%nat ->
       Forall2 (fun j x => nth_error X j = Some x) (seq n (length Z)) Z).
    { intros n Zs. revert n. induction Zs as [|z Zs IH]; intros n E L; cbn [length seq]; constructor.
      - specialize (E 0%nat). rewrite Nat.add_0_r in E. symmetry. exact E.
      - apply IH; [|cbn in L; lia]. intro a. specialize (E (Datatypes.S a)). simpl in E. rewrite E. f_equal. lia. }
    assert (Nth : forall a b, nth_error (seq 0 (length X)) a = Some b -> a = b).
    { intros a b E. assert (La : (a < length X)%nat) by (rewrite <- (seq_length (length X) 0); apply nth_error_Some; congruence).
      apply nth_error_nth with (d := 0%nat) in E. rewrite seq_nth in E by exact La. exact E. }
    split.
    - intros [L0 [ids [lb [b [[E1 [xs [E2 E3]]] [E4 E5]]]]]]. destruct k as [|k]; [|destruct k; discriminate]. injection E1 as <-.
      apply (Sel 0%nat X xs) in E2; [|reflexivity|lia]. subst xs. rewrite Hc in E3. injection E3 as <-.
      apply Nth in E4. subst b. rewrite Hi in E5. injection E5 as ->. auto.
    - intros [-> [-> L0]]. split; [exact L0|]. exists (seq 0 (length X)), lbls, i. split; [split; [reflexivity|]|].
      + exists X. split; [apply (Self 0%nat X); [reflexivity|lia]|exact Hc].
      + split; [|exact Hi]. assert (Li : (i < length X)%nat) by (rewrite <- Hl; apply nth_error_Some; congruence).
        rewrite nth_error_nth' with (d := 0%nat) by (rewrite seq_length; exact Li). rewrite seq_nth by exact Li. reflexivity. }
  destruct (components_chain X _ clust comps H) as [Ln K].
  intros i ci li Hci Hli. destruct (K i ci Hci) as [K1 K2]. split.
  - rewrite K1. split.
    + intro No. destruct (Z_lt_le_dec li 0) as [L|L]; [exact L|]. exfalso. apply No. exists 0%nat, li. apply (In_iff _ _ i li Hli). auto.
    + intros L [k [l C]]. apply (In_iff _ _ i li Hli) in C. lia.
  - intros j cj lj Hcj Hlj Ni. specialize (K2 j cj Hcj). split.
    + intros ->. assert (C : clos_trans nat (share_cluster X (yields (trivial_cover X)) clust) i j) by (apply K2; auto). clear - C In_iff Hli Hlj Hl.
      revert li lj Hli Hlj. induction C as [i j [k [l [P Q]]]|i m j C1 IH1 C2 IH2]; intros li lj Hli Hlj.
      * apply (In_iff _ _ i li Hli) in P. apply (In_iff _ _ j lj Hlj) in Q. destruct P as [_ [<- _]], Q as [_ [<- _]]. reflexivity.
      * assert (Lm : exists lm, nth_error lbls m = Some lm).
        { apply nth_error_ex. rewrite Hl. clear - C1. induction C1 as [i m [k [l [_ [_ [ids [lb [b [[_ [xs [Fa _]]] [Hb _]]]]]]]]]|]; [|assumption].
          apply nth_error_In in Hb. induction Fa as [|a x ids xs Hx Fa IH]; [contradiction|].
          destruct Hb as [<-|Hb]; [apply nth_error_Some; congruence|auto]. }
        destruct Lm as [lm Hm]. transitivity lm; eauto.
    + intros ->. apply K2. apply t_step. exists 0%nat, lj.
      assert (L : 0 <= lj).
      { destruct (Z_lt_le_dec lj 0) as [L|L]; [|exact L]. exfalso. apply Ni. apply K1.
        intros [k [l C]]. apply (In_iff _ _ i lj Hli) in C. lia. }
      split; [apply (In_iff _ _ i lj Hli)|apply (In_iff _ _ j lj Hlj)]; auto.
Qed.
Print Assumptions C67_trivial_cover.

(** ** Refuted: points closer than the radius are always joined. *)
Definition whole : clustering Z := fun _ xs => trivial_clustering xs.
Definition line_ball (r : Z) (Y : list Z) : gen (list nat) :=
  ball_apply Z.leb Z.ltb zgap 0 zmetric (mkball r tp_flat 1 None) Y.
Theorem C67_close_points_joined_refuted :
  exists Y r comps i j x y ci cj,
    mapper_connected_components Y (line_ball r Y) whole = Ok comps /\
    nth_error Y i = Some x /\ nth_error Y j = Some y /\ zmetric x y < r /\
    nth_error comps i = Some ci /\ nth_error comps j = Some cj /\ ci <> -1 /\ cj <> -1 /\ ci <> cj.
Proof.
  exists [0; 6; 2; 4], 3, [0; 1; 0; 1], 2%nat, 3%nat, 2, 4, 0, 1. vm_compute.
  repeat (split; [reflexivity|]). split; [discriminate|]. split; discriminate.
Qed.
Print Assumptions C67_close_points_joined_refuted.

(** ** Refuted: a larger radius joins at least as much. *)
Theorem C67_larger_radius_joins_more_refuted :
  exists Y r r' comps comps' i j c d d',
    r < r' /\
    mapper_connected_components Y (line_ball r Y) whole = Ok comps /\
    mapper_connected_components Y (line_ball r' Y) whole = Ok comps' /\
    nth_error comps i = Some c /\ nth_error comps j = Some c /\ c <> -1 /\
    nth_error comps' i = Some d /\ nth_error comps' j = Some d' /\ d <> -1 /\ d' <> -1 /\ d <> d'.
Proof.
  exists [0; 40; 19; 10; 30], 15, 20, [0; 0; 0; 0; 0], [0; 1; 0; 0; 1], 0%nat, 1%nat, 0, 0, 1. vm_compute.
  repeat (split; [reflexivity|]). split; [discriminate|]. repeat (split; [reflexivity|]).
  split; [discriminate|]. split; discriminate.
Qed.
Print Assumptions C67_larger_radius_joins_more_refuted.

(** Two groups with a gap of 10, radius 3: the first is joined through its overlapping
    balls; the clustering leaves out the point 21. *)
Definition skips_21 : clustering Z := fun _ xs => Ok (map (fun x => if x =? 21 then -1 else 0) xs).
Example C67_runs :
  mapper_connected_components [0; 2; 4; 14; 16; 21] (line_ball 3 [0; 2; 4; 14; 16; 21]) skips_21 = Ok [0; 0; 0; 2; 2; -1] /\
  (forall x y, In x [0; 2; 4; 14; 16; 21] -> In y [0; 2; 4; 14; 16; 21] ->
     (x <? 10) <> (y <? 10) -> zmetric x y <? 3 = false) /\
  mapper_connected_components [5; 6; 7; 8] (trivial_cover [5; 6; 7; 8]) (fun _ _ => Ok [1; -1; 0; 1]) = Ok [1; -1; 0; 1].
Proof.
  split; [vm_compute; reflexivity|]. split; [|vm_compute; reflexivity].
  intros x y Hx Hy G. cbn in Hx, Hy. intuition; subst; reflexivity || (destruct G; reflexivity).
Qed.
