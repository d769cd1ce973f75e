(** The trees produced by the builders. *)
From Verif Require Import Base SpecArray BaseFacts ModelQuickselect QuickselectFacts QuickselectProp
  ModelHeap ModelVPTree SpecVPTree VPArrayFacts.

Section VPBuild.
Context {T D : Type}.
Variable metric : T -> T -> D.
Variables leb ltb : D -> D -> bool.
Variable gap : D -> D -> D.
Variable zero : D.
Variable par : vparams D.
Variable dataset : list T.
Hypothesis Hord : order_ok leb ltb gap.
Hypothesis Hcap : 1 <= leaf_capacity par.
Notation varr := (qstate D nat bool).
Notation holds := (holds dataset).
Notation stepped := (stepped metric leb).

(** The vantage point and radius split a range. *)
Definition split_ok (ps : list T) (s e : nat) (r : D) (v : T) : Prop :=
  nth_error ps s = Some v /\
  Forall (fun x => leb (metric v x) r = true) (slice ps (S s) (mid_ s e)) /\
  Forall (fun x => leb r (metric v x) = true) (slice ps (mid_ s e) e) /\
  exists y, In y (slice ps (mid_ s e) e) /\ r = metric v y.

Lemma split_ok_perm ps ps' s e r v :
  nth_error ps' s = nth_error ps s ->
  Permutation (slice ps (S s) (mid_ s e)) (slice ps' (S s) (mid_ s e)) ->
  Permutation (slice ps (mid_ s e) e) (slice ps' (mid_ s e) e) ->
  split_ok ps s e r v -> split_ok ps' s e r v.
Proof.
  intros H1 H2 H3 [A1 [A2 [A3 [y [A4 A5]]]]]. split; [congruence|].
  split; [eapply Permutation_Forall; eauto|]. split; [eapply Permutation_Forall; eauto|].
  exists y. split; auto. eapply Permutation_in; eauto.
Qed.

(** Flat tree over the range [[s, e)]. *)
Inductive vtree (ds : list D) (ps : list T) (ts : list bool) : nat -> nat -> Prop :=
| vt_leaf s e : s <= e -> e <= length ps -> s < length ps -> nth_error ts s = Some true ->
    vtree ds ps ts s e
| vt_node s e r v : s + 3 <= e -> e <= length ps -> nth_error ts s = Some false ->
    nth_error ds s = Some r -> split_ok ps s e r v ->
    vtree ds ps ts (S s) (mid_ s e) -> vtree ds ps ts (mid_ s e) e -> vtree ds ps ts s e.

Lemma split_ok_frame ps ps' s e r v :
  s < e -> e <= length ps -> length ps' = length ps -> same_in s e ps ps' ->
  split_ok ps s e r v -> split_ok ps' s e r v.
Proof.
  intros H0 H1 H2 H3. pose proof (mid_bounds s e ltac:(lia)).
  apply split_ok_perm.
  - apply H3. lia.
  - rewrite (slice_ext (S s) (mid_ s e) ps ps'); auto; try lia. intros i Hi. apply H3. lia.
  - rewrite (slice_ext (mid_ s e) e ps ps'); auto; try lia. intros i Hi. apply H3. lia.
Qed.

Lemma vtree_frame ds ps ts ds' ps' ts' s e :
  vtree ds ps ts s e ->
  length ps' = length ps ->
  same_in s (Nat.max e (S s)) ds ds' -> same_in s (Nat.max e (S s)) ps ps' ->
  same_in s (Nat.max e (S s)) ts ts' ->
  vtree ds' ps' ts' s e.
Proof.
  intros HV HL. induction HV as [s e H1 H2 H3 H4|s e r v H1 H2 H3 H4 H5 HV1 IH1 HV2 IH2];
    intros S1 S2 S3.
  - apply vt_leaf; try lia. rewrite S3; auto. lia.
  - pose proof (mid_bounds2 s e ltac:(lia)). pose proof (mid_bounds1 s e ltac:(lia)).
    pose proof (mid_bounds s e ltac:(lia)).
    apply (vt_node ds' ps' ts' s e r v); auto; try lia.
    + rewrite S3; auto. lia.
    + rewrite S1; auto. lia.
    + eapply split_ok_frame; [| | | |exact H5]; auto; try lia. intros i Hi. apply S2. lia.
    + apply IH1; intros i Hi; [apply S1|apply S2|apply S3]; lia.
    + apply IH2; intros i Hi; [apply S1|apply S2|apply S3]; lia.
Qed.

Lemma same_out_in {X} s e a b (l l' : list X) :
  same_out s e l l' -> (b <= s \/ e <= a) -> same_in a b l l'.
Proof. intros [_ H] Hd i Hi. apply H. lia. Qed.

(** Effect of the flat builder on the stack entry [(s, e)]. *)
Lemma build_loop_correct m : forall s e c st ds ps ts,
  e - s <= m -> s <= e <= length ps -> s < length ps -> holds st ds ps (Some ts) ->
  exists n c' st' ds' ps' ts',
    n <= 2 * (e - s) + 1 /\
    (forall fuel rest,
      build_loop metric ltb zero par dataset (n + fuel) ((s, e) :: rest) c st =
      build_loop metric ltb zero par dataset fuel rest c' st') /\
    holds st' ds' ps' (Some ts') /\
    same_out s (Nat.max e (S s)) ds ds' /\ same_out s e ps ps' /\
    same_out s (Nat.max e (S s)) ts ts' /\
    Permutation (slice ps s e) (slice ps' s e) /\
    vtree ds' ps' ts' s e /\
    (e - s <= 2 * leaf_capacity par -> nth_error ts' s = Some true).
Proof.
  induction m as [m IH] using lt_wf_ind. intros s e c st ds ps ts Hm Hse Hs H.
  assert (Lt : length ts = length ps) by (apply H; reflexivity).
  assert (Ld : length ds = length ps) by apply H.
  destruct (Nat.eq_dec s e) as [Heq|Hne].
  - (* empty range *)
    subst e.
    destruct (nth_error_ex ps s Hs) as [v Hv].
    destruct (nth_error_ex ts s ltac:(lia)) as [fl Hf].
    destruct (nth_error_ex ds s ltac:(lia)) as [r Hr].
    destruct (set_distance_ok dataset st ds ps (Some ts) s r H Hs) as [st1 [E1 H1]].
    destruct (set_terminal_ok dataset st1 _ ps ts s true H1 Hs) as [st2 [E2 H2]].
    assert (Em : mid_ s s = s) by (unfold mid_; replace (s + s) with (s * 2) by lia; apply Nat.div_mul; lia).
    assert (EP : pivoting_ metric ltb zero par dataset c st s s = Ok (c, st)).
    { unfold pivoting_. rewrite Nat.leb_refl. destruct (pivot_kind par); reflexivity. }
    exists 1, c, st2, (upd ds s r), ps, (upd ts s true).
    split; [lia|]. split.
    { intros fuel rest. cbn [Nat.add build_loop]. unfold update_flat.
      rewrite EP. cbn [bind]. rewrite (get_point_ok dataset st ds ps (Some ts) s v H Hv). cbn [bind].
      rewrite (is_terminal_ok dataset st ds ps ts s fl H Hf). cbn [bind].
      replace (s - S s) with 0 by lia. cbn [for_range bind]. rewrite Em.
      destruct st as [sd s1 s2]. rewrite (quickselect_outside ltb sd s1 s2 (S s) s s) by lia. cbn [bind].
      rewrite (get_distance_ok dataset _ ds ps (Some ts) s r H Hr). cbn [bind].
      replace (2 * leaf_capacity par <? s - s) with false by (symmetry; apply Nat.ltb_ge; lia).
      cbn [andb]. rewrite E1. cbn [bind]. rewrite E2. reflexivity. }
    split; [exact H2|]. split; [apply upd_out; lia|]. split; [apply same_out_refl|].
    split; [apply upd_out; lia|]. split; [apply Permutation_refl|].
    assert (Ht : nth_error (upd ts s true) s = Some true) by (rewrite upd_nth, Nat.eqb_refl by lia; auto).
    split; [apply vt_leaf; auto; lia|]. auto.
  - assert (Hlt : s < e) by lia.
    destruct (pivoting_ok metric ltb zero par dataset c st ds ps (Some ts) s e H Hse)
      as [c1 [st1 [ds1 [ps1 [ts1 [EP [H1 T1]]]]]]].
    destruct ts1 as [ts1|]; [|destruct T1 as [_ [_ [_ T1]]]; tauto].
    assert (Lp1 : length ps1 = length ps) by (destruct T1 as [_ [[T1 _] _]]; exact T1).
    assert (Lt1 : length ts1 = length ps1) by (apply H1; reflexivity).
    destruct (nth_error_ex ps1 s ltac:(lia)) as [v Hv].
    destruct (nth_error_ex ts1 s ltac:(lia)) as [fl Hf].
    destruct (step_correct metric leb ltb gap dataset Hord st1 ds1 ps1 (Some ts1) s e v (Some fl) H1
                ltac:(lia) ltac:(discriminate) Hv)
      as [stu [st2 [ds2 [ps2 [ts2 [r [EU [EQ [ED [_ [H2 [T2 ST]]]]]]]]]]]].
    destruct ts2 as [ts2|]; [|destruct T2 as [_ [_ [_ T2]]]; tauto].
    assert (T12 := touched_trans _ _ _ _ _ _ _ _ _ _ _ T1 T2). clear T1 T2.
    assert (Lp2 : length ps2 = length ps) by (destruct T12 as [_ [[T12 _] _]]; exact T12).
    assert (Lt2 : length ts2 = length ps2) by (apply H2; reflexivity).
    assert (Ld2 : length ds2 = length ps2) by apply H2.
    pose proof (mid_bounds s e ltac:(lia)) as B0. pose proof (mid_bounds1 s e ltac:(lia)) as B1.
    destruct (set_distance_ok dataset st2 ds2 ps2 (Some ts2) s r H2 ltac:(lia)) as [st3 [E3 H3]].
    destruct T12 as [TD [TP [TM TT]]].
    assert (Emax : Nat.max e (S s) = e) by lia.
    destruct ((2 * leaf_capacity par <? e - s) && ltb (leaf_radius par) r) eqn:EC.
    + (* inner node *)
      apply andb_prop in EC as [EC1 EC2]. apply Nat.ltb_lt in EC1.
      destruct (set_terminal_ok dataset st3 _ ps2 ts2 s false H3 ltac:(lia)) as [st4 [E4 H4]].
      pose proof (mid_bounds2 s e ltac:(lia)) as B2.
      destruct ST as [SV [SR SS]]. specialize (SS ltac:(lia)).
      destruct (IH (mid_ s e - S s) ltac:(lia) (S s) (mid_ s e) c1 st4 _ ps2 _ ltac:(lia) ltac:(lia) ltac:(lia) H4)
        as [n5 [c5 [st5 [ds5 [ps5 [ts5 [N5 [L5 [H5 [D5 [P5 [Q5 [M5 [V5 _]]]]]]]]]]]]]].
      assert (Lp5 : length ps5 = length ps2) by apply P5.
      destruct (IH (e - mid_ s e) ltac:(lia) (mid_ s e) e c5 st5 ds5 ps5 ts5 ltac:(lia) ltac:(lia) ltac:(lia) H5)
        as [n6 [c6 [st6 [ds6 [ps6 [ts6 [N6 [L6 [H6 [D6 [P6 [Q6 [M6 [V6 Z6]]]]]]]]]]]]]].
      assert (Lp6 : length ps6 = length ps5) by apply P6.
      assert (Lt6 : length ts6 = length ps6) by (apply H6; reflexivity).
      replace (Nat.max e (S (mid_ s e))) with e in D6, Q6 by lia.
      exists (S (n5 + n6)), c6, st6, ds6, ps6, ts6.
      split; [lia|]. split.
      { intros fuel rest. cbn [Nat.add build_loop]. unfold update_flat.
        rewrite EP. cbn [bind]. rewrite (get_point_ok dataset st1 ds1 ps1 (Some ts1) s v H1 Hv). cbn [bind].
        rewrite (is_terminal_ok dataset st1 ds1 ps1 ts1 s fl H1 Hf). cbn [bind].
        rewrite EU. cbn [bind]. rewrite EQ. cbn [bind]. rewrite ED. cbn [bind].
        apply Nat.ltb_lt in EC1. rewrite EC1, EC2. cbn [andb].
        rewrite E3. cbn [bind]. rewrite E4. cbn [bind].
        rewrite <- Nat.add_assoc, L5, L6. reflexivity. }
      assert (OD : same_out s e ds2 ds6).
      { eapply same_out_trans; [apply (upd_out ds2 s e s r); lia|].
        eapply same_out_trans; [apply (same_out_widen s e (S s) (Nat.max (mid_ s e) (S (S s))) _ _ ltac:(lia) ltac:(lia) D5)|].
        apply (same_out_widen s e (mid_ s e) e _ _ ltac:(lia) ltac:(lia) D6). }
      assert (OP : same_out s e ps2 ps6).
      { eapply same_out_trans; [apply (same_out_widen s e (S s) (mid_ s e) _ _ ltac:(lia) ltac:(lia) P5)|].
        apply (same_out_widen s e (mid_ s e) e _ _ ltac:(lia) ltac:(lia) P6). }
      assert (OT : same_out s e ts2 ts6).
      { eapply same_out_trans; [apply (upd_out ts2 s e s false); lia|].
        eapply same_out_trans; [apply (same_out_widen s e (S s) (Nat.max (mid_ s e) (S (S s))) _ _ ltac:(lia) ltac:(lia) Q5)|].
        apply (same_out_widen s e (mid_ s e) e _ _ ltac:(lia) ltac:(lia) Q6). }
      assert (PM : Permutation (slice ps2 (S s) (mid_ s e)) (slice ps6 (S s) (mid_ s e))).
      { rewrite (slice_ext (S s) (mid_ s e) ps5 ps6); try lia; auto.
        intros i Hi. apply P6. lia. }
      assert (PM2 : Permutation (slice ps2 (mid_ s e) e) (slice ps6 (mid_ s e) e)).
      { rewrite <- (slice_ext (mid_ s e) e ps2 ps5); try lia; auto.
        intros i Hi. apply P5. lia. }
      assert (VS : nth_error ps6 s = nth_error ps2 s).
      { rewrite (proj2 P6) by lia. apply (proj2 P5). lia. }
      split; [exact H6|]. rewrite Emax.
      split; [eapply same_out_trans; eauto|]. split; [eapply same_out_trans; eauto|].
      split; [eapply same_out_trans; eauto|]. split.
      { eapply Permutation_trans; [exact TM|].
        destruct (nth_error_ex ps2 s ltac:(lia)) as [w Hw].
        rewrite (slice_cons ps2 s e w) by (auto; lia). rewrite (slice_cons ps6 s e w) by (congruence || lia).
        rewrite (slice_split ps2 (S s) (mid_ s e) e) by lia.
        rewrite (slice_split ps6 (S s) (mid_ s e) e) by lia.
        constructor. apply Permutation_app; assumption. }
      split; [|intro; lia].
      apply (vt_node ds6 ps6 ts6 s e r v); try lia.
      * rewrite (proj2 Q6) by lia. rewrite (proj2 Q5) by lia. rewrite upd_nth, Nat.eqb_refl by lia. reflexivity.
      * rewrite (proj2 D6) by lia. rewrite (proj2 D5) by lia. rewrite upd_nth, Nat.eqb_refl by lia. reflexivity.
      * apply (split_ok_perm ps2); auto. split; [exact SV|]. exact SS.
      * destruct (Nat.eq_dec (S s) (mid_ s e)) as [Hm1|Hm1].
        -- rewrite <- Hm1. apply vt_leaf; try lia. rewrite Hm1. apply Z6.
           destruct (Nat.le_gt_cases (s + 4) e) as [G|G]; [|lia].
           pose proof (mid_bounds3 s e G). lia.
        -- eapply vtree_frame; [exact V5|exact Lp6| | |];
             replace (Nat.max (mid_ s e) (S (S s))) with (mid_ s e) by lia;
             (eapply same_out_in; [eassumption|lia]).
      * exact V6.
    + (* leaf *)
      destruct (set_terminal_ok dataset st3 _ ps2 ts2 s true H3 ltac:(lia)) as [st4 [E4 H4]].
      exists 1, c1, st4, (upd ds2 s r), ps2, (upd ts2 s true).
      split; [lia|]. split.
      { intros fuel rest. cbn [Nat.add build_loop]. unfold update_flat.
        rewrite EP. cbn [bind]. rewrite (get_point_ok dataset st1 ds1 ps1 (Some ts1) s v H1 Hv). cbn [bind].
        rewrite (is_terminal_ok dataset st1 ds1 ps1 ts1 s fl H1 Hf). cbn [bind].
        rewrite EU. cbn [bind]. rewrite EQ. cbn [bind]. rewrite ED. cbn [bind].
        rewrite EC. rewrite E3. cbn [bind]. rewrite E4. reflexivity. }
      split; [exact H4|]. rewrite Emax.
      split; [eapply same_out_trans; [exact TD|apply upd_out; lia]|].
      split; [exact TP|]. split; [eapply same_out_trans; [exact TT|apply upd_out; lia]|].
      split; [exact TM|].
      assert (Ht : nth_error (upd ts2 s true) s = Some true) by (rewrite upd_nth, Nat.eqb_refl by lia; auto).
      split; [apply vt_leaf; auto; lia|]. auto.
Qed.

Lemma holds_init n ts : n = length dataset -> (forall l, ts = Some l -> length l = n) ->
  holds (mkq (repeat zero n) (Some (seq 0 n)) ts) (repeat zero n) dataset ts.
Proof.
  intros -> Hts. split; [reflexivity|]. split; [reflexivity|]. split.
  - exists (seq 0 (length dataset)). split; [reflexivity|].
    assert (G : forall pre l : list T, Forall2 (fun ix p => nth_error (pre ++ l) ix = Some p)
                                (seq (length pre) (length l)) l).
    { intros pre l; revert pre. induction l as [|x l IH]; intro pre; simpl; constructor.
      - rewrite nth_error_app2, Nat.sub_diag by lia. reflexivity.
      - specialize (IH (pre ++ [x])). rewrite app_length in IH. simpl in IH.
        rewrite Nat.add_1_r, <- app_assoc in IH. exact IH. }
    apply (G [] dataset).
  - rewrite repeat_length. split; auto.
Qed.

Lemma build_flat_correct :
  dataset <> [] ->
  exists st ds ps ts, build_flat metric ltb zero par dataset = Ok st /\
    holds st ds ps (Some ts) /\ Permutation dataset ps /\ vtree ds ps ts 0 (length dataset).
Proof.
  intro Hn. unfold build_flat.
  assert (Hl : 0 < length dataset) by (destruct dataset; simpl; [congruence|lia]).
  apply Nat.ltb_lt in Hl. rewrite Hl. apply Nat.ltb_lt in Hl.
  pose proof (holds_init (length dataset) (Some (repeat false (length dataset))) eq_refl
    ltac:(intros l Hx; injection Hx as <-; apply repeat_length)) as H0.
  destruct (build_loop_correct (length dataset) 0 (length dataset) 0 _ _ dataset _ ltac:(lia) ltac:(lia) Hl H0)
    as [n [c' [st' [ds' [ps' [ts' [N [L [H [_ [P [_ [M [V _]]]]]]]]]]]]]].
  exists st', ds', ps', ts'. split.
  - replace (2 * length dataset + 1) with (n + (2 * length dataset + 1 - n)) by lia.
    rewrite L. destruct (2 * length dataset + 1 - n); reflexivity.
  - split; [exact H|]. split; [|exact V].
    destruct P as [P _]. rewrite slice_full in M. rewrite <- P in M. rewrite slice_full in M. exact M.
Qed.

(** Hierarchical tree over [[s, e)]. *)
Inductive htree_ok (ps : list T) : nat -> nat -> @htree T D -> Prop :=
| ho_leaf s e : s <= e <= length ps -> htree_ok ps s e (HLeaf s e)
| ho_node s e r v l rt : s + 2 <= e -> e <= length ps -> split_ok ps s e r v ->
    htree_ok ps (S s) (mid_ s e) l -> htree_ok ps (mid_ s e) e rt ->
    htree_ok ps s e (HNode r v l rt).

Lemma htree_ok_frame ps ps' s e t :
  htree_ok ps s e t -> length ps' = length ps -> same_in s e ps ps' -> htree_ok ps' s e t.
Proof.
  intros HV HL. induction HV as [s e H1|s e r v l rt H1 H2 H3 HV1 IH1 HV2 IH2]; intro HS.
  - apply ho_leaf. lia.
  - pose proof (mid_bounds2 s e H1). pose proof (mid_bounds1 s e ltac:(lia)).
    apply ho_node; try lia.
    + eapply split_ok_frame; [| | | |exact H3]; auto; lia.
    + apply IH1. intros i Hi. apply HS. lia.
    + apply IH2. intros i Hi. apply HS. lia.
Qed.

Lemma build_rec_correct m : forall s e fuel c st ds ps,
  e - s <= m -> e - s < fuel -> s <= e <= length ps -> holds st ds ps None ->
  exists t c' st' ds' ps',
    build_rec metric leb ltb zero par dataset fuel s e c st = Ok (t, (c', st')) /\
    holds st' ds' ps' None /\ same_out s e ds ds' /\ same_out s e ps ps' /\
    Permutation (slice ps s e) (slice ps' s e) /\ htree_ok ps' s e t.
Proof.
  induction m as [m IH] using lt_wf_ind. intros s e fuel c st ds ps Hm Hfu Hse H.
  destruct fuel as [|fuel]; [lia|]. cbn [build_rec].
  destruct (Nat.leb_spec (e - s) (leaf_capacity par)) as [LC|LC].
  { exists (HLeaf s e), c, st, ds, ps. split; [reflexivity|]. split; [exact H|].
    split; [apply same_out_refl|]. split; [apply same_out_refl|]. split; [apply Permutation_refl|].
    apply ho_leaf. lia. }
  unfold update_hier.
  destruct (pivoting_ok metric ltb zero par dataset c st ds ps None s e H Hse)
    as [c1 [st1 [ds1 [ps1 [ts1 [EP [H1 T1]]]]]]].
  destruct ts1 as [ts1|]; [destruct T1 as [_ [_ [_ T1]]]; tauto|].
  rewrite EP. cbn [bind].
  assert (Lp1 : length ps1 = length ps) by (destruct T1 as [_ [[T1 _] _]]; exact T1).
  destruct (nth_error_ex ps1 s ltac:(lia)) as [v Hv].
  rewrite (get_point_ok dataset st1 ds1 ps1 None s v H1 Hv). cbn [bind].
  destruct (step_correct metric leb ltb gap dataset Hord st1 ds1 ps1 None s e v None H1
              ltac:(lia) ltac:(discriminate) Hv)
    as [stu [st2 [ds2 [ps2 [ts2 [r [EU [EQ [ED [[dsu [tsu HU]] [H2 [T2 ST]]]]]]]]]]]].
  destruct ts2 as [ts2|]; [destruct T2 as [_ [_ [_ T2]]]; tauto|].
  rewrite EU. cbn [bind].
  rewrite (get_point_ok dataset stu dsu ps1 tsu s v HU Hv). cbn [bind].
  rewrite EQ. cbn [bind]. rewrite ED. cbn [bind].
  assert (T12 := touched_trans _ _ _ _ _ _ _ _ _ _ _ T1 T2). clear T1 T2.
  destruct T12 as [TD [TP [TM _]]].
  assert (Lp2 : length ps2 = length ps) by apply TP.
  assert (Ld2 : length ds2 = length ps2) by apply H2.
  destruct (set_distance_ok dataset st2 ds2 ps2 None s r H2 ltac:(lia)) as [st3 [E3 H3]].
  rewrite E3. cbn [bind].
  pose proof (mid_bounds2 s e ltac:(lia)) as B2. pose proof (mid_bounds1 s e ltac:(lia)) as B1.
  destruct ST as [SV [SR SS]]. specialize (SS ltac:(lia)).
  assert (SO : split_ok ps2 s e r v) by (split; [exact SV|exact SS]).
  destruct (leb r (leaf_radius par)).
  - eexists _, c1, st3, _, ps2. split; [reflexivity|]. split; [exact H3|].
    split; [eapply same_out_trans; [exact TD|apply upd_out; lia]|].
    split; [exact TP|]. split; [exact TM|].
    apply ho_node; auto; try lia; apply ho_leaf; lia.
  - destruct (IH (mid_ s e - S s) ltac:(lia) (S s) (mid_ s e) fuel c1 st3 _ ps2 ltac:(lia) ltac:(lia) ltac:(lia) H3)
      as [t5 [c5 [st5 [ds5 [ps5 [L5 [H5 [D5 [P5 [M5 V5]]]]]]]]]].
    rewrite L5. cbn [bind].
    assert (Lp5 : length ps5 = length ps2) by apply P5.
    destruct (IH (e - mid_ s e) ltac:(lia) (mid_ s e) e fuel c5 st5 ds5 ps5 ltac:(lia) ltac:(lia) ltac:(lia) H5)
      as [t6 [c6 [st6 [ds6 [ps6 [L6 [H6 [D6 [P6 [M6 V6]]]]]]]]]].
    rewrite L6. cbn [bind].
    assert (Lp6 : length ps6 = length ps5) by apply P6.
    assert (OD : same_out s e ds2 ds6).
    { eapply same_out_trans; [apply (upd_out ds2 s e s r); lia|].
      eapply same_out_trans; [apply (same_out_widen s e (S s) (mid_ s e) _ _ ltac:(lia) ltac:(lia) D5)|].
      apply (same_out_widen s e (mid_ s e) e _ _ ltac:(lia) ltac:(lia) D6). }
    assert (OP : same_out s e ps2 ps6).
    { eapply same_out_trans; [apply (same_out_widen s e (S s) (mid_ s e) _ _ ltac:(lia) ltac:(lia) P5)|].
      apply (same_out_widen s e (mid_ s e) e _ _ ltac:(lia) ltac:(lia) P6). }
    assert (PM : Permutation (slice ps2 (S s) (mid_ s e)) (slice ps6 (S s) (mid_ s e))).
    { rewrite (slice_ext (S s) (mid_ s e) ps5 ps6); try lia; auto. intros i Hi. apply P6. lia. }
    assert (PM2 : Permutation (slice ps2 (mid_ s e) e) (slice ps6 (mid_ s e) e)).
    { rewrite <- (slice_ext (mid_ s e) e ps2 ps5); try lia; auto. intros i Hi. apply P5. lia. }
    assert (VS : nth_error ps6 s = nth_error ps2 s).
    { rewrite (proj2 P6) by lia. apply (proj2 P5). lia. }
    eexists _, c6, st6, ds6, ps6. split; [reflexivity|]. split; [exact H6|].
    split; [eapply same_out_trans; eauto|]. split; [eapply same_out_trans; eauto|]. split.
    { eapply Permutation_trans; [exact TM|].
      rewrite (slice_cons ps2 s e v) by (auto; lia). rewrite (slice_cons ps6 s e v) by (congruence || lia).
      rewrite (slice_split ps2 (S s) (mid_ s e) e) by lia.
      rewrite (slice_split ps6 (S s) (mid_ s e) e) by lia.
      constructor. apply Permutation_app; assumption. }
    apply ho_node; try lia.
    + apply (split_ok_perm ps2); auto.
    + eapply htree_ok_frame; [exact V5|exact Lp6|]. eapply same_out_in; [exact P6|lia].
    + exact V6.
Qed.

Lemma build_hier_correct :
  exists t st ds ps, build_hier metric leb ltb zero par dataset = Ok (t, st) /\
    holds st ds ps None /\ Permutation dataset ps /\ htree_ok ps 0 (length dataset) t.
Proof.
  unfold build_hier.
  pose proof (holds_init (length dataset) None eq_refl ltac:(discriminate)) as H0.
  destruct (Nat.ltb_spec 0 (length dataset)) as [Hl|Hl].
  - destruct (build_rec_correct (length dataset) 0 (length dataset) (S (length dataset)) 0 _ _ dataset
      ltac:(lia) ltac:(lia) ltac:(lia) H0) as [t [c' [st' [ds' [ps' [E [H [_ [P [M V]]]]]]]]]].
    rewrite E. cbn [bind fst snd]. exists t, st', ds', ps'. split; [reflexivity|]. split; [exact H|].
    split; [|exact V].
    destruct P as [P _]. rewrite slice_full in M. rewrite <- P in M. rewrite slice_full in M. exact M.
  - eexists _, _, _, dataset. split; [reflexivity|]. split; [exact H0|]. split; [apply Permutation_refl|].
    replace (length dataset) with 0 by lia. apply ho_leaf. lia.
Qed.
End VPBuild.
