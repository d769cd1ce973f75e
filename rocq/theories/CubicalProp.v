(** Public form of the results on the cubical covers. *)
From Verif Require Import Base BaseFacts ModelCore SpecNet CoreLabels CoreProp ModelQuickselect ModelVPTree SpecVPTree VPSearchFacts
  VPProp ModelArith ModelCover SpecCover SpecMetric SpecCubical CoverFacts CoverProp CubicalFacts.
From Coq Require Import Reals Lra Sorted.
Open Scope R_scope.

Section Cubical.
Variable m : nat.
Variable eps : R.
Variable X : list (list R).
Variables lo hi : nat -> R.
Variable c : cubical RA.
Variable ov : R.
Notation n := (cu_n_intervals RA c).
Notation gpos := (grid_pos n eps lo hi).
Notation r := (1 / (2 - 2 * ov)).
Hypothesis Hm : (1 <= m)%nat.
Hypothesis Hn : (1 <= n)%Z.
Hypothesis He : 0 <= eps.
Hypothesis Hrows : Forall (fun x => length x = m) X.
Hypothesis HX : X <> [].
Hypothesis Hb : column_bounds m X lo hi.
Hypothesis Hov : overlap_is m (cu_overlap_frac RA c) ov.
Hypothesis Hcap : (1 <= cu_leaf_capacity RA c)%nat.
Hypothesis Hkind : tp_kind (cu_tree RA c) <> OtherKind.

Lemma Hov_model : match cu_overlap_frac RA c with
                  | Some o => o = ov
                  | None => get_overlap_frac RA m (1 / 2) = Ok ov
                  end.
Proof.
  generalize Hov. unfold overlap_is. destruct (cu_overlap_frac RA c); [auto|].
  apply default_overlap_computed, Hm.
Qed.

Lemma in_cell_exists x : length x = m -> exists k, in_cell m n gpos x k.
Proof. intro Hx. eexists. apply offset_in_cell; auto. Qed.

Lemma r_pos : 0 < ov < 1 -> 1 / 2 < r.
Proof.
  intro H. apply Rmult_lt_reg_r with (2 - 2 * ov); [lra|]. unfold Rdiv at 2.
  rewrite Rmult_assoc, Rinv_l by lra. lra.
Qed.

Notation gb := (grid_bounds m n eps lo hi).

Lemma fit_state_ok : 0 < ov < 1 ->
  exists search, cubical_fit_state RA eps c X = Ok (gb, search) /\
    forall q, length q = m -> exists ids,
      cubical_query RA (gb, search) q = Ok ids /\
      cube_ids m r gpos X (offset RA gb q) ids.
Proof.
  intros H.
  destruct (cubical_fit_ok m n eps X lo hi Hn He Hrows HX Hb c ov eq_refl Hov_model
     ltac:(lra) ltac:(lra) Hcap Hkind) as [search [E Q]].
  exists search. split; [exact E|]. intros q Hq. destruct (Q q Hq) as [ids [E2 [Nd B]]].
  exists ids. split; [exact E2|]. split; [exact Nd|]. intro i. rewrite B. unfold cube_r.
  pose proof (r_pos H). split; intros [x [N D]]; exists x; intuition. lra.
Qed.

Lemma fit_unfold : cubical_fit RA eps c X = do s <- cubical_fit_state RA eps c X; Ok (cubical_query RA s).
Proof. unfold cubical_fit. destruct X; [congruence|reflexivity]. Qed.

Lemma cubical_search_exact : 0 < ov < 1 ->
  exists search, cubical_fit RA eps c X = Ok search /\
    forall q k, length q = m -> in_cell m n gpos q k ->
    exists ids, search q = Ok ids /\ cube_ids m r gpos X k ids.
Proof.
  intro H. destruct (fit_state_ok H) as [search [E Q]].
  rewrite fit_unfold, E. cbn [bind]. eexists. split; [reflexivity|].
  intros q k Hq Hk. apply (in_cell_offset m n eps lo hi Hn q k Hq) in Hk. subst k. apply Q, Hq.
Qed.

(** Positions of data points lie between 0 and n. *)
Lemma pos_range x j : In x X -> (j < m)%nat -> 0 <= gpos j (coord x j) /\
  (gpos j (coord x j) <= IZR n \/ gpos j (coord x j) <= eps).
Proof.
  intros I Hj. destruct (Hb j Hj) as [_ [_ B]]. specialize (B x I). unfold grid_pos.
  assert (0 < IZR n) by (apply IZR_lt; lia).
  destruct (Rle_dec (hi j - lo j) eps) as [D|D]; [lra|].
  assert (P : 0 < hi j - lo j) by lra.
  split.
  - apply Rmult_le_pos; [apply Rmult_le_pos; lra|]. apply Rlt_le, Rinv_0_lt_compat, P.
  - left. apply Rmult_le_reg_r with (hi j - lo j); [exact P|]. unfold Rdiv.
    rewrite Rmult_assoc, Rinv_l by lra. rewrite Rmult_1_r. apply Rmult_le_compat_l; lra.
Qed.

(** A data point is in the hypercube of its cell. *)
Lemma point_in_own_cube x : 0 < ov < 1 -> eps <= 1 -> In x X -> length x = m ->
  in_cube m r gpos (offset RA gb x) x.
Proof.
  intros H He1 I Hx j Hj. pose proof (r_pos H) as Hr.
  destruct (offset_in_cell m n eps lo hi Hn x Hx) as [_ C]. specialize (C j Hj).
  set (k := nth j (offset RA gb x) 0%Z) in *. destruct C as [C1 [C2 C3]].
  destruct (pos_range x j I Hj) as [P1 P2].
  assert (U : gpos j (coord x j) <= IZR k + 1).
  { destruct (Z.eq_dec k (n - 1)) as [->|Hk].
    - rewrite minus_IZR. destruct P2 as [P2|P2]; [lra|].
      assert (1 <= IZR n) by (apply IZR_le; lia). lra.
    - specialize (C3 ltac:(lia)). lra. }
  apply Rle_lt_trans with (1 / 2); [|exact Hr]. apply Rabs_le. lra.
Qed.

Lemma query_self x i ids search : 0 < ov < 1 -> eps <= 1 ->
  cubical_query RA (gb, search) x = Ok ids -> cube_ids m r gpos X (offset RA gb x) ids ->
  nth_error X i = Some x -> In i ids.
Proof.
  intros H He1 E [_ B] N. apply B. exists x. split; [exact N|]. apply point_in_own_cube; auto.
  - eapply nth_error_In, N.
  - pose proof Hrows as Hr. rewrite Forall_forall in Hr. apply Hr. eapply nth_error_In, N.
Qed.

Lemma standard_ok : 0 < ov < 1 -> eps <= 1 ->
  let net := standard_cubical_apply RA eps c X in
  stops net = None /\
  exists cells, NoDup cells /\
    (forall k, In k cells <-> exists x, In x X /\ in_cell m n gpos x k) /\
    Forall2 (fun k s => s <> [] /\ cube_ids m r gpos X k s) cells (yields net) /\
    (forall a b k k' i i', (a < b)%nat -> nth_error cells a = Some k -> nth_error cells b = Some k' ->
       first_in_cell m n gpos X k i -> first_in_cell m n gpos X k' i' -> (i' < i)%nat).
Proof.
  intros H He1 net. destruct (fit_state_ok H) as [search [E Q]].
  assert (En : net = landmark_loop RA (cubical_query RA (gb, search)) (landmarks RA gb X)).
  { unfold net, standard_cubical_apply. rewrite E. destruct X; [congruence|reflexivity]. }
  pose proof Hrows as Hrw. rewrite Forall_forall in Hrw.
  change (landmarks RA gb X) with (lms (offset RA gb) X) in En.
  destruct (lms_ok (offset RA gb) X) as [L1 [L2 [L3 L4]]].
  set (lm := lms (offset RA gb) X) in *.
  assert (Hq : forall p, In p lm -> exists s, cubical_query RA (gb, search) (snd p) = Ok s /\ s <> []).
  { intros p Hp. destruct (L2 p Hp) as [Ip Kp]. destruct (Q (snd p) (Hrw _ Ip)) as [ids [E2 B]].
    exists ids. split; [exact E2|]. destruct (In_nth_error _ _ Ip) as [i N].
    pose proof (query_self _ i ids search H He1 E2 B N). intros ->. contradiction. }
  destruct (landmark_loop_ok _ lm Hq) as [S1 S2]. rewrite <- En in S1, S2.
  split; [exact S1|]. exists (map fst lm). split; [exact L1|].
  assert (Hcell : forall x k, In x X -> (in_cell m n gpos x k <-> k = offset RA gb x)).
  { intros x k I. apply in_cell_offset; auto. }
  split; [|split].
  - intro k. split.
    + intro I. apply in_map_iff in I as [p [<- Ip]]. destruct (L2 p Ip) as [I1 I2].
      exists (snd p). split; [exact I1|]. apply Hcell; auto.
    + intros [x [I Hk]]. apply Hcell in Hk; auto. subst k. apply L3, I.
  - clear - S2 L2 Q Hrw. revert S2 L2. generalize (yields net). induction lm as [|p lm IH]; intros ys S2 L2.
    + inversion S2. constructor.
    + inversion S2 as [|? s ? ys' [E1 Ne] F]; subst. simpl. constructor.
      * split; [exact Ne|]. destruct (L2 p (or_introl eq_refl)) as [I1 I2].
        destruct (Q (snd p) (Hrw _ I1)) as [ids [E2 B]]. pose proof (eq_trans (eq_sym E1) E2) as EE. injection EE as <-.
        rewrite <- I2. exact B.
      * apply IH; auto. intros q Hq. apply L2. right. exact Hq.
  - assert (Hf : forall k i, first_in_cell m n gpos X k i -> first_at (offset RA gb) X k i).
    { intros k i [[x [N C]] F]. split.
      - exists x. split; [exact N|]. symmetry. apply Hcell; [eapply nth_error_In, N|exact C].
      - intros j y Hj Ny Ey. apply (F j y Hj Ny). apply Hcell; [eapply nth_error_In, Ny|auto]. }
    intros a b k k' i i' Hab Na Nb F F'.
    rewrite nth_error_map in Na, Nb.
    destruct (nth_error lm a) as [p|] eqn:Ea; [|discriminate].
    destruct (nth_error lm b) as [p'|] eqn:Eb; [|discriminate].
    injection Na as <-. injection Nb as <-. eapply (L4 a b p p'); eauto.
Qed.

Lemma proximity_ok : 0 < ov < 1 -> eps <= 1 ->
  let net := proximity_cubical_apply RA eps c X in
  stops net = None /\ covers (length X) (yields net) /\
  exists centers, StronglySorted lt centers /\
    Forall2 (fun i s => exists x k, nth_error X i = Some x /\ In i s /\ in_cell m n gpos x k /\
               cube_ids m r gpos X k s) centers (yields net) /\
    (forall a b i s, (b < a)%nat -> nth_error centers a = Some i ->
       nth_error (yields net) b = Some s -> ~ In i s).
Proof.
  intros H He1 net. destruct (fit_state_ok H) as [search [E Q]].
  assert (Ef : cubical_fit RA eps c X = Ok (cubical_query RA (gb, search))).
  { rewrite fit_unfold, E. reflexivity. }
  pose proof Hrows as Hrw. rewrite Forall_forall in Hrw.
  assert (Hans : forall i x s, nth_error X i = Some x -> cubical_query RA (gb, search) x = Ok s ->
            In i s /\ cube_ids m r gpos X (offset RA gb x) s).
  { intros i x s N Es. destruct (Q x (Hrw _ (nth_error_In _ _ N))) as [ids [E2 B]].
    pose proof (eq_trans (eq_sym Es) E2) as EE. injection EE as <-. split; [|exact B]. eapply query_self; eauto. }
  assert (Hst : stops net = None).
  { unfold net, proximity_cubical_apply. eapply net_total; [|exact Ef]. intros x I.
    destruct (Q x (Hrw _ I)) as [ids [E2 _]]. eauto. }
  split; [exact Hst|]. split.
  - intros i Hi. eapply net_covers; [exact Ef|exact Hst| |exact Hi].
    intros j x s N Es. exact (proj1 (Hans j x s N Es)).
  - destruct (net_greedy (cubical_fit RA eps c) X _ Ef) as [cs [S1 [S2 S3]]].
    exists cs. split; [exact S1|]. split; [|exact S3].
    eapply Forall2_impl; [|exact S2]. intros i s [[x [N Es]] _].
    destruct (Hans i x s N Es) as [I B]. exists x, (offset RA gb x).
    split; [exact N|]. split; [exact I|]. split; [|exact B].
    apply offset_in_cell; auto. apply Hrw. eapply nth_error_In, N.
Qed.

Lemma cubical_covers alg : 0 < ov < 1 -> eps <= 1 -> alg <> OtherAlgorithm ->
  let net := cubical_apply RA eps alg c X in
  stops net = None /\ covers (length X) (yields net) /\
  forall s, In s (yields net) -> s <> [] /\
    exists x k, In x X /\ in_cell m n gpos x k /\ cube_ids m r gpos X k s.
Proof.
  intros H He1 Ha. destruct alg; [| |congruence]; cbn [cubical_apply].
  - destruct (proximity_ok H He1) as [P1 [P2 [cs [_ [P3 _]]]]]. split; [exact P1|]. split; [exact P2|].
    intros s Hs. clear - P3 Hs. induction P3 as [|i s' cs ss [x [k [N [I [C B]]]]] F IH]; [contradiction|].
    destruct Hs as [<-|Hs]; [|apply IH, Hs]. split; [intros ->; contradiction|].
    exists x, k. split; [eapply nth_error_In, N|]. auto.
  - destruct (standard_ok H He1) as [P1 [cells [P2 [P3 [P4 _]]]]]. split; [exact P1|]. split.
    + intros i Hi. destruct (nth_error X i) as [x|] eqn:N; [|apply nth_error_None in N; lia].
      pose proof Hrows as Hrw. rewrite Forall_forall in Hrw.
      assert (Ix := nth_error_In _ _ N).
      assert (Ik : In (offset RA gb x) cells).
      { apply P3. exists x. split; [exact Ix|]. apply offset_in_cell; auto. }
      apply In_nth_error in Ik as [a Na].
      destruct (Forall2_nth_left _ _ _ _ _ P4 Na) as [s [Ns [_ [_ B]]]].
      exists s. split; [eapply nth_error_In, Ns|]. apply B. exists x. split; [exact N|].
      apply point_in_own_cube; auto.
    + intros s Hs. apply In_nth_error in Hs as [a Na].
      assert (F : Forall2 (fun s k => s <> [] /\ cube_ids m r gpos X k s)
                   (yields (standard_cubical_apply RA eps c X)) cells).
      { clear - P4. induction P4; constructor; auto. }
      destruct (Forall2_nth_left _ _ _ _ _ F Na) as [k [Nk [Ne B]]]. split; [exact Ne|].
      destruct (proj1 (P3 k) (nth_error_In _ _ Nk)) as [x [Ix C]]. eauto.
Qed.

(** An overlap above 1 gives a negative radius. *)
Lemma cubical_overlap_large alg : 1 < ov -> alg <> OtherAlgorithm ->
  cubical_apply RA eps alg c X = mkgen [] None.
Proof.
  intros H Ha.
  destruct (cubical_fit_ok m n eps X lo hi Hn He Hrows HX Hb c ov eq_refl Hov_model
     ltac:(lra) ltac:(lra) Hcap Hkind) as [search [E Q]].
  pose proof Hrows as Hrw. rewrite Forall_forall in Hrw.
  assert (Hq : forall x, In x X -> cubical_query RA (gb, search) x = Ok []).
  { intros x I. destruct (Q x (Hrw _ I)) as [ids [E2 [_ B]]]. rewrite E2. f_equal.
    destruct ids as [|i ids]; [reflexivity|]. exfalso.
    destruct (proj1 (B i) (or_introl eq_refl)) as [y [_ [P _]]].
    assert (cube_r ov < 0); [|lra]. unfold cube_r, Rdiv. rewrite Rmult_1_l. apply Rinv_lt_0_compat. lra. }
  destruct alg; [| |congruence]; cbn [cubical_apply].
  - eapply net_nil; [|exact Hq]. rewrite fit_unfold, E. reflexivity.
  - unfold standard_cubical_apply. rewrite E. destruct X as [|x0 X0] eqn:EX; [congruence|]. rewrite <- EX in *.
    apply landmark_loop_nil. intros p Hp.
    change (landmarks RA gb X) with (lms (offset RA gb) X) in Hp.
    destruct (lms_ok (offset RA gb) X) as [_ [L2 _]]. apply Hq, L2, Hp.
Qed.
End Cubical.

Lemma column_bounds_exist m X : X <> [] -> exists lo hi, column_bounds m X lo hi.
Proof.
  destruct X as [|x0 X]; [congruence|]. intros _.
  exists (fun j => fold_left (fun a x => min_n RA a (coord x j)) X (coord x0 j)),
         (fun j => fold_left (fun a x => max_n RA a (coord x j)) X (coord x0 j)).
  intros j _. destruct (fold_min j X x0) as [A B]. destruct (fold_max j X x0) as [C D].
  split; [exact A|]. split; [exact C|]. intros x I. split; [apply B, I|apply D, I].
Qed.

(** Invalid overlaps. *)
Lemma cubical_overlap_nonpos (eps : R) (c : cubical RA) X ov alg :
  cu_overlap_frac RA c = Some ov -> ov <= 0 -> X <> [] ->
  cubical_fit RA eps c X = Err ValueError /\
  cubical_apply RA eps alg c X = mkgen [] (Some ValueError).
Proof.
  intros E H HX. destruct X as [|x X]; [congruence|].
  assert (Ef : cubical_fit_state RA eps c (x :: X) = Err ValueError).
  { unfold cubical_fit_state. rewrite E. cbn [bind].
    assert (L : le_b RA ov (zero RA) = true) by (apply Rleb_true; exact H). rewrite L. reflexivity. }
  assert (Ec : cubical_fit RA eps c (x :: X) = Err ValueError).
  { unfold cubical_fit. rewrite Ef. reflexivity. }
  split; [exact Ec|]. destruct alg; cbn [cubical_apply].
  - unfold proximity_cubical_apply, proximity_net. rewrite Ec. reflexivity.
  - unfold standard_cubical_apply. rewrite Ef. reflexivity.
  - reflexivity.
Qed.

Lemma cubical_overlap_one (eps : R) (c : cubical RA) X :
  cu_overlap_frac RA c = Some 1 -> X <> [] -> cubical_fit RA eps c X = Err ZeroDivisionError.
Proof.
  intros E HX. destruct X as [|x X]; [congruence|]. unfold cubical_fit, cubical_fit_state. rewrite E.
  cbn [bind]. assert (L : le_b RA 1 (zero RA) = false) by (apply Rleb_false; unfold zero; simpl; lra).
  rewrite L. cbn [get_bounds bind].
  assert (D : eq_b RA (sub RA (ofz RA 2) (mul RA (ofz RA 2) 1)) (zero RA) = true).
  { unfold eq_b, zero. simpl. apply andb_true_intro. split; apply Rleb_true; lra. }
  rewrite D. reflexivity.
Qed.

Lemma cubical_empty (A : arith) eps (c : cubical A) alg : alg <> OtherAlgorithm ->
  cubical_apply A eps alg c [] = mkgen [] None.
Proof. destruct alg; [reflexivity|reflexivity|congruence]. Qed.

(** *** Overlaps of the hypercubes of the grid *)
Lemma Rabs_le_bounds x y : Rabs x <= y -> - y <= x <= y.
Proof. unfold Rabs. destruct (Rcase_abs x); lra. Qed.

(** The positions of one cell that no other hypercube reaches form a box. *)
Lemma core_box m r z k : 1 / 2 < r <= 1 -> length k = m ->
  ((forall k', length k' = m -> in_cube m r (fun _ v => v) k' z -> k' = k) /\
   in_cube m r (fun _ v => v) k z <->
   forall j, (j < m)%nat -> Rabs (coord z j - (IZR (nth j k 0%Z) + 1 / 2)) <= 1 - r).
Proof.
  intros Hr Hk. split.
  - intros [H Hin] j Hj. destruct (Rle_dec (Rabs (coord z j - (IZR (nth j k 0%Z) + 1 / 2))) (1 - r)) as [L|L]; [exact L|].
    exfalso. apply Rnot_le_lt in L.
    (* shift cell number j towards the point *)
    set (s := if Rle_dec (IZR (nth j k 0%Z) + 1 / 2) (coord z j) then 1%Z else (-1)%Z).
    set (k' := firstn j k ++ (nth j k 0 + s)%Z :: skipn (S j) k).
    assert (Lk : length k' = m).
    { unfold k'. rewrite app_length, firstn_length. cbn [length]. rewrite skipn_length. lia. }
    assert (Nj : nth j k' 0%Z = (nth j k 0 + s)%Z).
    { unfold k'. rewrite app_nth2; rewrite firstn_length; [|lia].
      replace (j - Nat.min j (length k))%nat with 0%nat by lia. reflexivity. }
    assert (No : forall i, i <> j -> nth i k' 0%Z = nth i k 0%Z).
    { intros i Hi. unfold k'. transitivity (nth i (firstn j k ++ skipn j k) 0%Z); [|rewrite firstn_skipn; reflexivity].
      assert (Lf : length (firstn j k) = j) by (rewrite firstn_length; lia).
      destruct (lt_dec i j) as [Li|Li].
      - rewrite !app_nth1 by lia. reflexivity.
      - rewrite !app_nth2 by lia. rewrite Lf.
        destruct (skipn j k) as [|a l] eqn:Es.
        + exfalso. assert (length (skipn j k) = 0%nat) by (rewrite Es; reflexivity). rewrite skipn_length in H0. lia.
        + assert (Es' : skipn (S j) k = l).
          { clear - Es. revert k Es. induction j as [|j IH]; intros [|b k] Es; simpl in Es; try discriminate.
            - injection Es as -> ->. reflexivity.
            - simpl. apply IH in Es. exact Es. }
          rewrite Es'. destruct (i - j)%nat as [|q] eqn:Eq; [lia|]. reflexivity. }
    assert (K : k' = k).
    { apply H; [exact Lk|]. intros i Hi. destruct (Nat.eq_dec i j) as [->|Hij].
      - rewrite Nj, plus_IZR. specialize (Hin j Hj). apply Rabs_def2 in Hin. unfold s.
        destruct (Rle_dec (IZR (nth j k 0%Z) + 1 / 2) (coord z j)) as [D|D].
        + rewrite Rabs_right in L by lra. apply Rabs_def1; lra.
        + rewrite Rabs_left in L by lra. apply Rabs_def1; lra.
      - rewrite No by exact Hij. apply Hin, Hi. }
    rewrite K in Nj. unfold s in Nj. destruct (Rle_dec _ _) in Nj; lia.
  - intro H. split.
    + intros k' Lk' H'. apply nth_ext with (d := 0%Z) (d' := 0%Z); [congruence|]. intros j Hj.
      rewrite Lk' in Hj. specialize (H j Hj). specialize (H' j Hj).
      apply Rabs_def2 in H'. apply Rabs_le_bounds in H.
      set (a := nth j k' 0%Z) in *. set (b := nth j k 0%Z) in *.
      assert (IZR a < IZR b + 1) by lra. assert (IZR b < IZR a + 1) by lra.
      rewrite <- plus_IZR in H0, H1. apply lt_IZR in H0, H1. lia.
    + intros j Hj. apply Rle_lt_trans with (1 - r); [apply H, Hj|lra].
Qed.

Lemma default_core_volume m ov : (1 <= m)%nat -> default_overlap m ov ->
  1 / 2 < 1 / (2 - 2 * ov) <= 1 /\ (2 * (1 - 1 / (2 - 2 * ov))) ^ m = 1 / 2.
Proof.
  intros Hm [[O1 O2] O3]. split.
  - split.
    + apply Rmult_lt_reg_r with (2 - 2 * ov); [lra|]. unfold Rdiv at 2. rewrite Rmult_assoc, Rinv_l by lra. lra.
    + apply Rmult_le_reg_r with (2 - 2 * ov); [lra|]. unfold Rdiv. rewrite Rmult_assoc, Rinv_l by lra. lra.
  - rewrite <- O3. f_equal. field. lra.
Qed.

(** Adjacent intervals: the common part has length [ov] times the length of an
    interval. *)
Lemma adjacent_overlap ov k : 0 < ov < 1 ->
  let r := 1 / (2 - 2 * ov) in
  let left_end := IZR k + 1 / 2 - r in let right_end := IZR k + 1 / 2 + r in
  let next_left := IZR (k + 1) + 1 / 2 - r in
  next_left < right_end /\ right_end - next_left = ov * (right_end - left_end).
Proof.
  intros H. cbn zeta. rewrite plus_IZR.
  assert (E : 2 * (1 / (2 - 2 * ov)) = 1 / (1 - ov)) by (field; lra).
  assert (1 < 1 / (1 - ov)).
  { apply Rmult_lt_reg_r with (1 - ov); [lra|]. unfold Rdiv. rewrite Rmult_assoc, Rinv_l by lra. lra. }
  split; [lra|].
  replace (IZR k + 1 / 2 + 1 / (2 - 2 * ov) - (IZR k + 1 + 1 / 2 - 1 / (2 - 2 * ov))) with (1 / (1 - ov) - 1) by lra.
  replace (IZR k + 1 / 2 + 1 / (2 - 2 * ov) - (IZR k + 1 / 2 - 1 / (2 - 2 * ov))) with (1 / (1 - ov)) by lra.
  field. lra.
Qed.

(** Share of a whole hypercube that other hypercubes reach, with the default. *)
Lemma default_cube_share m ov : (1 <= m)%nat -> default_overlap m ov ->
  let r := 1 / (2 - 2 * ov) in 1 - (2 * (1 - r)) ^ m / (2 * r) ^ m > 1 / 2.
Proof.
  intros Hm D r. destruct (default_core_volume m ov Hm D) as [[R1 R2] V]. fold r in R1, R2, V. rewrite V.
  assert (1 < (2 * r) ^ m). { apply Rlt_pow_R1; [lra|lia]. }
  assert (1 / 2 / (2 * r) ^ m < 1 / 2); [|lra].
  apply Rmult_lt_reg_r with ((2 * r) ^ m); [lra|]. unfold Rdiv at 1. rewrite Rmult_assoc, Rinv_l by lra. lra.
Qed.
