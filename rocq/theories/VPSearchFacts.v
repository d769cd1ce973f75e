(** Searches in vp-trees. *)
From Verif Require Import Base SpecArray BaseFacts ModelQuickselect QuickselectFacts QuickselectProp
  ModelHeap HeapFacts ModelVPTree SpecVPTree VPArrayFacts VPBuildFacts.

Lemma filter_perm {X} (f : X -> bool) l l' : Permutation l l' -> Permutation (filter f l) (filter f l').
Proof.
  induction 1; simpl; auto.
  - destruct (f x); auto.
  - destruct (f x), (f y); auto. constructor.
  - eapply Permutation_trans; eauto.
Qed.

Section VPSearch.
Context {T D : Type}.
Variable metric : T -> T -> D.
Variables leb ltb : D -> D -> bool.
Variable gap : D -> D -> D.
Variable zero : D.
Variable dataset : list T.
Hypothesis Hord : order_ok leb ltb gap.
Notation varr := (qstate D nat bool).
Notation holds := (holds dataset).
Notation split_ok := (split_ok metric leb).
Notation vtree := (vtree metric leb).
Notation htree_ok := (htree_ok metric leb).
Notation cut_off := (cut_off metric leb ltb gap).
Notation in_ball := (in_ball metric leb ltb).

Lemma cut_off_mono X X' q (far far' : D -> Prop) x :
  (forall g, far g -> far' g) -> incl X X' -> cut_off X q far x -> cut_off X' q far' x.
Proof.
  intros H HI [v [y [H1 [H2 [H3 H4]]]]]. exists v, y. split; [apply HI, H1|].
  split; [apply HI, H2|]. split; auto.
Qed.

(** What the tree says about the two halves of a node. *)
Lemma halves_cut ps s e r v q (far : D -> Prop) x :
  s + 2 <= e -> split_ok ps s e r v -> far (gap (metric q v) r) ->
  In x (if leb (metric q v) r then slice ps (mid_ s e) e else slice ps (S s) (mid_ s e)) ->
  cut_off ps q far x.
Proof.
  intros Hs [H1 [H2 [H3 [y [Hy Hr]]]]] Hf Hx. exists v, y.
  split; [eapply nth_error_In; eauto|].
  split; [eapply slice_incl; eauto|]. rewrite <- Hr. split; [|exact Hf].
  rewrite Forall_forall in H2, H3.
  destruct (leb (metric q v) r) eqn:E.
  - left. split; [exact E|]. apply H3, Hx.
  - right. split; [apply (ltb_true leb ltb gap Hord), E|]. apply H2, Hx.
Qed.

Lemma slice_node ps s e r v :
  s + 2 <= e -> split_ok ps s e r v ->
  slice ps s e = v :: slice ps (S s) (mid_ s e) ++ slice ps (mid_ s e) e.
Proof.
  intros Hs [H1 _]. pose proof (mid_bounds2 s e Hs). pose proof (mid_bounds1 s e ltac:(lia)).
  rewrite (slice_cons ps s e v) by (auto; lia). rewrite (slice_split ps (S s) (mid_ s e) e) by lia.
  reflexivity.
Qed.

Lemma slice_node_fst ps s e r v (b : bool) :
  s + 2 <= e -> split_ok ps s e r v ->
  Permutation (slice ps s e)
   (v :: (if b then slice ps (S s) (mid_ s e) else slice ps (mid_ s e) e) ++
         (if b then slice ps (mid_ s e) e else slice ps (S s) (mid_ s e))).
Proof.
  intros Hs H. rewrite (slice_node ps s e r v Hs H). destruct b; [apply Permutation_refl|].
  constructor. apply Permutation_app_comm.
Qed.

(** *** Ball search *)
Definition ball_far (eps : D) (g : D) : Prop := leb g eps = false.

Lemma ball_combine ps q eps incl v A B f1 m1 f2 m2 L :
  Permutation L (v :: A ++ B) ->
  Permutation (f1 ++ m1) (filter (in_ball q eps incl) A) ->
  Permutation (f2 ++ m2) (filter (in_ball q eps incl) B) ->
  Forall (cut_off ps q (ball_far eps)) m1 -> Forall (cut_off ps q (ball_far eps)) m2 ->
  let fv := if in_ball q eps incl v then [v] else [] in
  Permutation ((fv ++ f1 ++ f2) ++ (m1 ++ m2)) (filter (in_ball q eps incl) L) /\
  Forall (cut_off ps q (ball_far eps)) (m1 ++ m2).
Proof.
  intros H H1 H2 F1 F2 fv. split; [|apply Forall_app; auto].
  rewrite (filter_perm _ _ _ H).
  assert (E : filter (in_ball q eps incl) (v :: A ++ B) =
              fv ++ filter (in_ball q eps incl) A ++ filter (in_ball q eps incl) B).
  { simpl. rewrite filter_app. unfold fv. destruct (in_ball q eps incl v); reflexivity. }
  rewrite E, <- H1, <- H2. rewrite <- !app_assoc. apply Permutation_app_head, Permutation_app_head.
  rewrite !app_assoc. apply Permutation_app_tail. apply Permutation_app_comm.
Qed.

Lemma ball_loop_correct st ds ps ts q eps incl s e :
  holds st ds ps (Some ts) -> vtree ds ps ts s e ->
  exists n found missed, n <= 2 * (e - s) + 1 /\
    (forall fuel rest result,
       ball_loop metric leb ltb gap dataset (n + fuel) st q eps incl ((s, e) :: rest) result =
       ball_loop metric leb ltb gap dataset fuel st q eps incl rest (result ++ found)) /\
    Permutation (found ++ missed) (filter (in_ball q eps incl) (slice ps s e)) /\
    Forall (cut_off ps q (ball_far eps)) missed.
Proof.
  intros H HV. assert (Ld : length ds = length ps) by apply H.
  induction HV as [s e H1 H2 H3 H4|s e r v H1 H2 H3 H4 H5 HV1 IH1 HV2 IH2].
  - destruct (nth_error_ex ds s ltac:(lia)) as [r Hr]. destruct (nth_error_ex ps s H3) as [v Hv].
    exists 1, (filter (in_ball q eps incl) (slice ps s e)), [].
    split; [lia|]. split.
    + intros fuel rest result. cbn [Nat.add ball_loop].
      rewrite (get_distance_ok dataset st ds ps (Some ts) s r H Hr). cbn [bind].
      rewrite (get_point_ok dataset st ds ps (Some ts) s v H Hv). cbn [bind].
      rewrite (is_terminal_ok dataset st ds ps ts s true H H4). cbn [bind].
      rewrite (get_points_ok dataset st ds ps (Some ts) s e H). reflexivity.
    + rewrite app_nil_r. auto.
  - destruct IH1 as [n1 [f1 [m1 [N1 [L1 [P1 F1]]]]]]. destruct IH2 as [n2 [f2 [m2 [N2 [L2 [P2 F2]]]]]].
    assert (Hv : nth_error ps s = Some v) by apply H5.
    pose proof (mid_bounds2 s e ltac:(lia)) as B2. pose proof (mid_bounds1 s e ltac:(lia)) as B1.
    set (fv := if in_ball q eps incl v then [v] else []).
    set (bl := filter (in_ball q eps incl)).
    assert (STEP : forall fuel rest result,
      ball_loop metric leb ltb gap dataset (S fuel) st q eps incl ((s, e) :: rest) result =
      let fs := if leb (metric q v) r then ((S s, mid_ s e), (mid_ s e, e))
                else ((mid_ s e, e), (S s, mid_ s e)) in
      ball_loop metric leb ltb gap dataset fuel st q eps incl
        (fst fs :: (if leb (gap (metric q v) r) eps then snd fs :: rest else rest)) (result ++ fv)).
    { intros fuel rest result. cbn [ball_loop].
      rewrite (get_distance_ok dataset st ds ps (Some ts) s r H H4). cbn [bind].
      rewrite (get_point_ok dataset st ds ps (Some ts) s v H Hv). cbn [bind].
      rewrite (is_terminal_ok dataset st ds ps ts s false H H3). cbn [bind].
      unfold fv, SpecVPTree.in_ball. unfold inside.
      destruct (leb (metric q v) r); cbv zeta beta iota; cbn [fst snd];
        destruct incl; [destruct (leb (metric q v) eps)|destruct (ltb (metric q v) eps)|
                        destruct (leb (metric q v) eps)|destruct (ltb (metric q v) eps)];
        rewrite ?app_nil_r; reflexivity. }
    destruct (leb (gap (metric q v) r) eps) eqn:EG.
    + destruct (leb (metric q v) r) eqn:EL.
      * exists (S (n1 + n2)), (fv ++ f1 ++ f2), (m1 ++ m2). split; [lia|]. split.
        -- intros fuel rest result. cbn [Nat.add]. rewrite STEP. cbn [fst snd]. cbv zeta.
           rewrite <- Nat.add_assoc, L1, L2. rewrite <- !app_assoc. reflexivity.
        -- apply (ball_combine ps q eps incl v (slice ps (S s) (mid_ s e)) (slice ps (mid_ s e) e)); auto.
           rewrite (slice_node ps s e r v ltac:(lia) H5). apply Permutation_refl.
      * exists (S (n2 + n1)), (fv ++ f2 ++ f1), (m2 ++ m1). split; [lia|]. split.
        -- intros fuel rest result. cbn [Nat.add]. rewrite STEP. cbn [fst snd]. cbv zeta.
           rewrite <- Nat.add_assoc, L2, L1. rewrite <- !app_assoc. reflexivity.
        -- apply (ball_combine ps q eps incl v (slice ps (mid_ s e) e) (slice ps (S s) (mid_ s e))); auto.
           apply (slice_node_fst ps s e r v false); auto; lia.
    + pose proof (fun x => halves_cut ps s e r v q (ball_far eps) x ltac:(lia) H5 EG) as HC.
      assert (FC : forall l, (forall x, In x l -> cut_off ps q (ball_far eps) x) ->
                   Forall (cut_off ps q (ball_far eps)) (bl l)).
      { intros l Hl. apply Forall_forall. intros x Hx. apply filter_In in Hx as [Hx _]. auto. }
      destruct (leb (metric q v) r) eqn:EL.
      * exists (S n1), (fv ++ f1 ++ []), (m1 ++ bl (slice ps (mid_ s e) e)). split; [lia|]. split.
        -- intros fuel rest result. cbn [Nat.add]. rewrite STEP. cbn [fst snd]. cbv zeta.
           rewrite L1. rewrite app_nil_r, <- !app_assoc. reflexivity.
        -- apply (ball_combine ps q eps incl v (slice ps (S s) (mid_ s e)) (slice ps (mid_ s e) e)); auto.
           rewrite (slice_node ps s e r v ltac:(lia) H5). apply Permutation_refl.
      * exists (S n2), (fv ++ f2 ++ []), (m2 ++ bl (slice ps (S s) (mid_ s e))). split; [lia|]. split.
        -- intros fuel rest result. cbn [Nat.add]. rewrite STEP. cbn [fst snd]. cbv zeta.
           rewrite L2. rewrite app_nil_r, <- !app_assoc. reflexivity.
        -- apply (ball_combine ps q eps incl v (slice ps (mid_ s e) e) (slice ps (S s) (mid_ s e))); auto.
           apply (slice_node_fst ps s e r v false); auto; lia.
Qed.

Lemma ball_rec_correct st ds ps q eps incl s e t :
  holds st ds ps None -> (forall v, In v ps -> metric v q = metric q v) -> htree_ok ps s e t ->
  exists found missed,
    (forall result, ball_rec metric leb ltb gap dataset st q eps incl t result = Ok (result ++ found)) /\
    Permutation (found ++ missed) (filter (in_ball q eps incl) (slice ps s e)) /\
    Forall (cut_off ps q (ball_far eps)) missed.
Proof.
  intros H Hsym HV.
  induction HV as [s e H1|s e r v l rt H1 H2 H5 HV1 IH1 HV2 IH2].
  - exists (filter (in_ball q eps incl) (slice ps s e)), []. split.
    + intro result. cbn [ball_rec]. rewrite (get_points_ok dataset st ds ps None s e H). reflexivity.
    + rewrite app_nil_r. auto.
  - destruct IH1 as [f1 [m1 [L1 [P1 F1]]]]. destruct IH2 as [f2 [m2 [L2 [P2 F2]]]].
    assert (Hv : nth_error ps s = Some v) by apply H5.
    pose proof (mid_bounds2 s e ltac:(lia)) as B2. pose proof (mid_bounds1 s e ltac:(lia)) as B1.
    set (fv := if in_ball q eps incl v then [v] else []).
    set (bl := filter (in_ball q eps incl)).
    assert (FV : forall result : list T,
      (if inside leb ltb eps incl (metric q v) then result ++ [v] else result) = result ++ fv).
    { intro result. unfold fv, SpecVPTree.in_ball, inside.
      destruct incl; [destruct (leb (metric q v) eps)|destruct (ltb (metric q v) eps)];
        rewrite ?app_nil_r; reflexivity. }
    assert (HS : metric v q = metric q v) by (apply Hsym; eapply nth_error_In; eauto).
    destruct (leb (gap (metric q v) r) eps) eqn:EG.
    + destruct (leb (metric q v) r) eqn:EL.
      * exists (fv ++ f1 ++ f2), (m1 ++ m2). split.
        -- intros result. cbn [ball_rec]. rewrite HS, FV, EL, L1. cbn [bind].
           rewrite EG, L2. rewrite <- !app_assoc. reflexivity.
        -- apply (ball_combine ps q eps incl v (slice ps (S s) (mid_ s e)) (slice ps (mid_ s e) e)); auto.
           rewrite (slice_node ps s e r v ltac:(lia) H5). apply Permutation_refl.
      * exists (fv ++ f2 ++ f1), (m2 ++ m1). split.
        -- intros result. cbn [ball_rec]. rewrite HS, FV, EL, L2. cbn [bind].
           rewrite EG, L1. rewrite <- !app_assoc. reflexivity.
        -- apply (ball_combine ps q eps incl v (slice ps (mid_ s e) e) (slice ps (S s) (mid_ s e))); auto.
           apply (slice_node_fst ps s e r v false); auto; lia.
    + pose proof (fun x => halves_cut ps s e r v q (ball_far eps) x ltac:(lia) H5 EG) as HC.
      assert (FC : forall l, (forall x, In x l -> cut_off ps q (ball_far eps) x) ->
                   Forall (cut_off ps q (ball_far eps)) (bl l)).
      { intros l0 Hl. apply Forall_forall. intros x Hx. apply filter_In in Hx as [Hx _]. auto. }
      destruct (leb (metric q v) r) eqn:EL.
      * exists (fv ++ f1 ++ []), (m1 ++ bl (slice ps (mid_ s e) e)). split.
        -- intros result. cbn [ball_rec]. rewrite HS, FV, EL, L1. cbn [bind].
           rewrite EG. rewrite app_nil_r, <- !app_assoc. reflexivity.
        -- apply (ball_combine ps q eps incl v (slice ps (S s) (mid_ s e)) (slice ps (mid_ s e) e)); auto.
           rewrite (slice_node ps s e r v ltac:(lia) H5). apply Permutation_refl.
      * exists (fv ++ f2 ++ []), (m2 ++ bl (slice ps (S s) (mid_ s e))). split.
        -- intros result. cbn [ball_rec]. rewrite HS, FV, EL, L2. cbn [bind].
           rewrite EG. rewrite app_nil_r, <- !app_assoc. reflexivity.
        -- apply (ball_combine ps q eps incl v (slice ps (mid_ s e) e) (slice ps (S s) (mid_ s e))); auto.
           apply (slice_node_fst ps s e r v false); auto; lia.
Qed.

(** *** k nearest neighbours *)
Notation heap := (list (D * T)).
Notation offer := (knn_offer ltb).
Let Hsw := ltb_strict_weak leb ltb gap Hord.

Definition knn_far (q : T) (h : heap) (g : D) : Prop :=
  forall a, In a (map snd h) -> leb (metric q a) g = true.

(** [h] holds the best [k] of the processed points [P]; the points [M] were
    skipped, each behind a sphere farther than all of [h]. *)
Record kinv (X : list T) (k : nat) (q : T) (P M : list T) (h : heap) : Prop := mk_kinv {
  ki_heap : heap_ok ltb h;
  ki_keys : forall d x, In (d, x) h -> d = metric q x;
  ki_len : length h = Nat.min k (length P);
  ki_best : exists rest, Permutation P (map snd h ++ rest) /\
     forall a b, In a (map snd h) -> In b rest -> leb (metric q a) (metric q b) = true;
  ki_full : M <> [] -> length h = k;
  ki_cut : Forall (cut_off X q (knn_far q h)) M }.

Lemma kinv_nil X k q : kinv X k q [] [] [].
Proof.
  split; simpl; try tauto; auto using heap_ok_nil.
  - rewrite Nat.min_0_r. reflexivity.
  - exists []. simpl. split; [constructor|tauto].
Qed.

Lemma kinv_perm X k q P P' M M' h :
  Permutation P P' -> Permutation M M' -> kinv X k q P M h -> kinv X k q P' M' h.
Proof.
  intros HP HM [A1 A2 A3 [rest [A4 A5]] A6 A7]. split; auto.
  - rewrite <- (Permutation_length HP). exact A3.
  - exists rest. split; auto. rewrite <- HP. exact A4.
  - intro HN. apply A6. intros ->. apply Permutation_nil in HM. auto.
  - eapply Permutation_Forall; eauto.
Qed.

Lemma map_snd_in (h : heap) a : In a (map snd h) -> exists d, In (d, a) h.
Proof. intro H. apply in_map_iff in H as [[d x] [E H]]. simpl in E. subst. eauto. Qed.

(** The radius bounds the heap. *)
Lemma radius_bound X k q P M h r :
  kinv X k q P M h -> get_radius k h = Some r ->
  length h = k /\ k <> 0 /\ knn_far q h r /\ exists y, In y (map snd h) /\ r = metric q y.
Proof.
  intros [A1 A2 A3 A4 A5 A6] H. unfold get_radius in H.
  destruct (Nat.ltb_spec (length h) k) as [L|L]; [discriminate|].
  destruct h as [|[d y] t] eqn:Eh; simpl in H; [discriminate|]. injection H as <-.
  split; [lia|]. split; [simpl in L, A3; lia|]. split.
  - intros a Ha. apply map_snd_in in Ha as [d' Ha].
    destruct (heap_top_max ltb Hsw ((d, y) :: t) (d, y) A1 eq_refl) as [_ HM].
    specialize (HM _ Ha). unfold node_lt in HM. simpl in HM. apply (ltb_false leb ltb gap Hord) in HM.
    rewrite (A2 d' a Ha) in HM. exact HM.
  - exists y. split; [simpl; auto|]. apply A2. left. reflexivity.
Qed.

Lemma radius_none k (h : heap) : length h <= k -> get_radius k h = None -> length h < k \/ k = 0.
Proof.
  unfold get_radius. intros Hl H. destruct (Nat.ltb_spec (length h) k) as [L|L]; auto.
  destruct h as [|[d y] t]; simpl in *; [lia|discriminate].
Qed.

Lemma offer_correct X k q P M h x :
  kinv X k q P M h ->
  exists h', offer k (metric q x) x h = Ok h' /\ kinv X k q (P ++ [x]) M h'.
Proof.
  intros K. pose proof K as [A1 A2 A3 [rest [A4 A5]] A6 A7]. unfold knn_offer.
  assert (SK : forall r, get_radius k h = Some r -> ltb (metric q x) r = false ->
               exists h', Ok h = Ok h' /\ kinv X k q (P ++ [x]) M h').
  { intros r Hr Hlt. destruct (radius_bound X k q P M h r K Hr) as [R1 [R2 [R3 _]]].
    apply (ltb_false leb ltb gap Hord) in Hlt.
    exists h. split; [reflexivity|]. split; auto.
    - rewrite app_length. simpl. lia.
    - exists (x :: rest). split.
      + rewrite <- Permutation_cons_append, <- Permutation_middle. constructor. exact A4.
      + intros a b Ha [<-|Hb]; auto. eapply (ord_trans _ _ _ Hord); [apply R3, Ha|exact Hlt]. }
  assert (Hlen : length h <= k) by lia.
  destruct (get_radius k h) as [r|] eqn:ER.
  - destruct (ltb (metric q x) r) eqn:EL; [|apply (SK r eq_refl EL)]. clear SK.
    destruct (radius_bound X k q P M h r K ER) as [R1 [R2 [R3 [y [R4 R5]]]]].
    unfold knn_add.
    destruct (heap_add_correct ltb Hsw h (metric q x) x A1) as [h1 [E1 [P1 O1]]].
    rewrite E1. cbn [bind].
    assert (L1 : length h1 = S k) by (rewrite <- (Permutation_length P1); simpl; lia).
    replace (k <? length h1) with true by (symmetry; apply Nat.ltb_lt; lia).
    destruct h1 as [|[dn n] t] eqn:Eh1; [simpl in L1; lia|].
    destruct (heap_pop_correct ltb Hsw _ (dn, n) t eq_refl O1) as [h2 [E2 [P2 O2]]].
    rewrite E2. cbn [bind snd]. exists h2. split; [reflexivity|].
    assert (IN : forall d a, In (d, a) ((dn, n) :: t) -> d = metric q a /\ (a = x \/ In a (map snd h))).
    { intros d a Ha. apply (Permutation_in _ (Permutation_sym P1)) in Ha. destruct Ha as [Ha|Ha].
      - injection Ha as <- <-. auto.
      - split; [apply A2, Ha|]. right. apply in_map_iff. exists (d, a). auto. }
    assert (IN2 : forall a, In a (map snd h2) -> exists d, In (d, a) ((dn, n) :: t)).
    { intros a Ha. apply map_snd_in in Ha as [d Ha]. exists d. right.
      eapply Permutation_in; [apply Permutation_sym; exact P2|exact Ha]. }
    assert (LX : leb (metric q x) r = true).
    { apply (leb_false_le leb ltb gap Hord). apply (ltb_true leb ltb gap Hord). exact EL. }
    split.
    + exact O2.
    + intros d a Ha. apply IN. right. eapply Permutation_in; [apply Permutation_sym; exact P2|exact Ha].
    + rewrite app_length, <- (Permutation_length P2). simpl in *. lia.
    + exists (n :: rest). split.
      * rewrite <- Permutation_cons_append, <- Permutation_middle, A4.
        assert (PP : Permutation (x :: map snd h) (n :: map snd h2)).
        { change (Permutation (map snd ((metric q x, x) :: h)) (n :: map snd h2)).
          rewrite P1. simpl. constructor. apply Permutation_map. exact P2. }
        change (Permutation ((x :: map snd h) ++ rest) ((n :: map snd h2) ++ rest)).
        apply Permutation_app_tail. exact PP.
      * intros a b Ha [<-|Hb].
        -- destruct (IN2 a Ha) as [d Hd].
           destruct (heap_top_max ltb Hsw ((dn, n) :: t) (dn, n) O1 eq_refl) as [_ HM].
           specialize (HM _ Hd). unfold node_lt in HM. simpl in HM.
           apply (ltb_false leb ltb gap Hord) in HM.
           rewrite (proj1 (IN d a Hd)) in HM. rewrite (proj1 (IN dn n (or_introl eq_refl))) in HM. exact HM.
        -- destruct (IN2 a Ha) as [d Hd]. destruct (proj2 (IN d a Hd)) as [->|Hh]; auto.
           eapply (ord_trans _ _ _ Hord); [exact LX|]. rewrite R5. apply A5; auto.
    + intros _. rewrite <- (Permutation_length P2). simpl in L1. lia.
    + eapply Forall_impl; [|exact A7]. intros z Hz. eapply cut_off_mono; [|apply incl_refl|exact Hz].
      intros g Hg a Ha. destruct (IN2 a Ha) as [d Hd]. destruct (proj2 (IN d a Hd)) as [->|Hh]; auto.
      eapply (ord_trans _ _ _ Hord); [exact LX|]. rewrite R5. apply Hg, R4.
  - clear SK. destruct (radius_none k h Hlen ER) as [Hk|Hk].
    + unfold knn_add.
      destruct (heap_add_correct ltb Hsw h (metric q x) x A1) as [h1 [E1 [P1 O1]]].
      rewrite E1. cbn [bind].
      assert (L1 : length h1 = S (length h)) by (rewrite <- (Permutation_length P1); reflexivity).
      replace (k <? length h1) with false by (symmetry; apply Nat.ltb_ge; lia).
      exists h1. split; [reflexivity|].
      assert (rest = []) as ->.
      { apply Permutation_length in A4. rewrite app_length, map_length in A4.
        destruct rest; auto. simpl in A4. lia. }
      assert (M = []) as -> by (destruct M; auto; specialize (A6 ltac:(discriminate)); lia).
      split; auto.
      * intros d a Ha. apply (Permutation_in _ (Permutation_sym P1)) in Ha. destruct Ha as [Ha|Ha]; auto.
        injection Ha as <- <-. reflexivity.
      * rewrite app_length. simpl. lia.
      * exists []. split; [|simpl; tauto]. rewrite app_nil_r in *.
        rewrite <- Permutation_cons_append, A4.
        change (Permutation (map snd ((metric q x, x) :: h)) (map snd h1)). apply Permutation_map, P1.
      * congruence.
    + subst k. assert (h = []) as -> by (destruct h; auto; simpl in Hlen; lia).
      unfold knn_add. destruct (heap_add_correct ltb Hsw [] (metric q x) x A1) as [h1 [E1 [P1 O1]]].
      rewrite E1. cbn [bind].
      apply Permutation_length_1_inv in P1. subst h1. simpl length. cbn [Nat.ltb Nat.leb].
      destruct (heap_pop_correct ltb Hsw _ (metric q x, x) [] eq_refl O1) as [h2 [E2 [P2 O2]]].
      rewrite E2. cbn [bind snd]. exists h2. split; [reflexivity|].
      apply Permutation_nil in P2. subst h2. split; auto; try (simpl; tauto).
      exists (rest ++ [x]). simpl in *. split; [apply Permutation_app_tail, A4|tauto].
Qed.

Lemma skip_correct X k q P M S h r :
  kinv X k q P M h -> get_radius k h = Some r ->
  Forall (cut_off X q (fun g => leb r g = true)) S -> kinv X k q P (M ++ S) h.
Proof.
  intros K Hr HS. destruct (radius_bound X k q P M h r K Hr) as [R1 [R2 [R3 _]]].
  destruct K as [A1 A2 A3 A4 A6 A7]. split; auto.
  apply Forall_app. split; auto. eapply Forall_impl; [|exact HS].
  intros z Hz. eapply cut_off_mono; [|apply incl_refl|exact Hz].
  intros g Hg a Ha. eapply (ord_trans _ _ _ Hord); [apply R3, Ha|exact Hg].
Qed.

Lemma pop_while_id fuel k (h : heap) : length h <= k -> pop_while ltb fuel k h = Ok h.
Proof.
  intro H. destruct fuel; cbn [pop_while]; replace (k <? length h) with false
    by (symmetry; apply Nat.ltb_ge; lia); reflexivity.
Qed.

Lemma process_correct X k q P M h x :
  kinv X k q P M h ->
  exists h', process metric leb ltb k q x (h, get_radius k h) = Ok (metric q x, (h', get_radius k h')) /\
    kinv X k q (P ++ [x]) M h'.
Proof.
  intro K. destruct (offer_correct X k q P M h x K) as [h' [E K']]. exists h'. split; [|exact K'].
  assert (Hlen : length h <= k) by (destruct K as [_ _ A3 _ _ _]; lia).
  assert (Hlen' : length h' <= k) by (destruct K' as [_ _ A3 _ _ _]; lia).
  assert (Hheap : heap_ok ltb h) by apply K.
  unfold process. unfold knn_offer in E.
  assert (ADD : knn_add ltb k h (metric q x) x = Ok h' ->
    (do h1 <- heap_add ltb h (metric q x) x;
     do h2 <- pop_while ltb (length h1) k h1;
     let radius' := if length h2 =? k then
                      match heap_top h2 with None => get_radius k h | Some (d, _) => Some d end
                    else get_radius k h in
     Ok (metric q x, (h2, radius'))) = Ok (metric q x, (h', get_radius k h'))).
  { clear E. intro E. unfold knn_add in E.
    destruct (heap_add_correct ltb Hsw h (metric q x) x Hheap) as [h1 [E1 [P1 O1]]].
    rewrite E1 in E. cbn [bind] in E. rewrite E1. cbn [bind].
    assert (L1 : length h1 = S (length h)) by (rewrite <- (Permutation_length P1); reflexivity).
    assert (EP : pop_while ltb (length h1) k h1 = Ok h').
    { destruct (Nat.ltb_spec k (length h1)) as [G|G].
      - rewrite L1. cbn [pop_while]. replace (k <? length h1) with true by (symmetry; apply Nat.ltb_lt; lia).
        apply bind_ok in E as [[o h2] [E2 E3]]. cbn [snd] in E3. injection E3 as ->.
        rewrite E2. cbn [bind snd]. apply pop_while_id. exact Hlen'.
      - injection E as ->. apply pop_while_id. exact Hlen'. }
    rewrite EP. cbn [bind]. f_equal. f_equal. f_equal.
    unfold get_radius at 3.
    destruct (Nat.eqb_spec (length h') k) as [G|G].
    - replace (length h' <? k) with false by (symmetry; apply Nat.ltb_ge; lia).
      destruct h' as [|[d y] t]; simpl; auto.
      unfold get_radius. destruct (length h <? k) eqn:EE; auto. destruct h as [|[d y] t]; auto.
      simpl in *. lia.
    - replace (length h' <? k) with true by (symmetry; apply Nat.ltb_lt; lia).
      assert (Hh : length h < length h').
      { destruct (Nat.ltb_spec k (length h1)) as [G2|G2].
        - exfalso. destruct h1 as [|n1 t1]; [simpl in L1; lia|].
          destruct (heap_pop_correct ltb Hsw _ n1 t1 eq_refl O1) as [h3 [E2 [P2 _]]].
          rewrite E2 in E. cbn [bind snd] in E. injection E as ->.
          apply Permutation_length in P2. simpl in *. lia.
        - injection E as ->. lia. }
      unfold get_radius. replace (length h <? k) with true by (symmetry; apply Nat.ltb_lt; lia). reflexivity. }
  destruct (get_radius k h) as [r|] eqn:ER.
  - rewrite (ord_lt _ _ _ Hord) in E. destruct (leb r (metric q x)); cbn [negb] in E.
    + injection E as <-. rewrite ER. reflexivity.
    + apply ADD, E.
  - apply ADD, E.
Qed.

(** Processing a list of points. *)
Lemma process_all X k q xs : forall P M h,
  kinv X k q P M h ->
  exists h',
    for_each xs (fun x s0 => do r <- process metric leb ltb k q x s0; Ok (snd r)) (h, get_radius k h)
      = Ok (h', get_radius k h') /\ kinv X k q (P ++ xs) M h'.
Proof.
  induction xs as [|x xs IH]; intros P M h K; cbn [for_each].
  - exists h. rewrite app_nil_r. auto.
  - destruct (process_correct X k q P M h x K) as [h1 [E1 K1]]. rewrite E1. cbn [bind snd].
    destruct (IH _ _ _ K1) as [h2 [E2 K2]]. exists h2. split; [exact E2|].
    rewrite <- app_assoc in K2. exact K2.
Qed.

Lemma offer_all X k q xs : forall P M h,
  kinv X k q P M h ->
  exists h',
    for_each xs (fun x h0 => offer k (metric q x) x h0) h = Ok h' /\ kinv X k q (P ++ xs) M h'.
Proof.
  induction xs as [|x xs IH]; intros P M h K; cbn [for_each].
  - exists h. rewrite app_nil_r. auto.
  - destruct (offer_correct X k q P M h x K) as [h1 [E1 K1]]. rewrite E1. cbn [bind].
    destruct (IH _ _ _ K1) as [h2 [E2 K2]]. exists h2. split; [exact E2|].
    rewrite <- app_assoc in K2. exact K2.
Qed.

Lemma knn_loop_correct st ds ps ts k q s e :
  holds st ds ps (Some ts) -> vtree ds ps ts s e ->
  forall P M h, kinv ps k q P M h ->
  exists n h' seen skipped, n <= 3 * (e - s) + 1 /\
    (forall fuel rest thr,
       knn_loop metric leb ltb gap zero dataset (n + fuel) st k q ((s, e, thr, Pre) :: rest) (h, get_radius k h) =
       knn_loop metric leb ltb gap zero dataset fuel st k q rest (h', get_radius k h')) /\
    Permutation (slice ps s e) (seen ++ skipped) /\
    kinv ps k q (P ++ seen) (M ++ skipped) h'.
Proof.
  intros H HV. assert (Ld : length ds = length ps) by apply H.
  (* the deferred visit of the second half *)
  assert (POST : forall s e thr, s <= e ->
    vtree ds ps ts s e ->
    (forall P M h, kinv ps k q P M h ->
      exists n h' seen skipped, n <= 3 * (e - s) + 1 /\
      (forall fuel rest thr,
       knn_loop metric leb ltb gap zero dataset (n + fuel) st k q ((s, e, thr, Pre) :: rest) (h, get_radius k h) =
       knn_loop metric leb ltb gap zero dataset fuel st k q rest (h', get_radius k h')) /\
      Permutation (slice ps s e) (seen ++ skipped) /\
      kinv ps k q (P ++ seen) (M ++ skipped) h') ->
    (forall r, leb r thr = true -> forall x, In x (slice ps s e) -> cut_off ps q (fun g => leb r g = true) x) ->
    forall P M h, kinv ps k q P M h ->
      exists n h' seen skipped, n <= 3 * (e - s) + 2 /\
      (forall fuel rest,
       knn_loop metric leb ltb gap zero dataset (n + fuel) st k q ((s, e, thr, Post) :: rest) (h, get_radius k h) =
       knn_loop metric leb ltb gap zero dataset fuel st k q rest (h', get_radius k h')) /\
      Permutation (slice ps s e) (seen ++ skipped) /\
      kinv ps k q (P ++ seen) (M ++ skipped) h').
  { intros s0 e0 thr Hse V IHp HC P M h K.
    assert (TV : s0 < length ps /\ exists b, nth_error ts s0 = Some b).
    { inversion V; subst; split; eauto; lia. }
    destruct TV as [Hs0 [tb Htb]].
    destruct (nth_error_ex ds s0 ltac:(lia)) as [r Hr]. destruct (nth_error_ex ps s0 Hs0) as [v Hv].
    destruct tb.
    - destruct (process_all ps k q (slice ps s0 e0) P M h K) as [h' [E K']].
      exists 1, h', (slice ps s0 e0), []. split; [lia|]. split.
      + intros fuel rest. cbn [Nat.add knn_loop].
        rewrite (get_distance_ok dataset st ds ps (Some ts) s0 r H Hr). cbn [bind].
        rewrite (get_point_ok dataset st ds ps (Some ts) s0 v H Hv). cbn [bind].
        rewrite (is_terminal_ok dataset st ds ps ts s0 true H Htb). cbn [bind].
        rewrite (get_points_ok dataset st ds ps (Some ts) s0 e0 H). cbn [bind]. rewrite E. reflexivity.
      + rewrite !app_nil_r. auto.
    - assert (STEP : forall fuel rest,
        knn_loop metric leb ltb gap zero dataset (S fuel) st k q ((s0, e0, thr, Post) :: rest) (h, get_radius k h) =
        if match get_radius k h with None => true | Some r => ltb thr r end
        then knn_loop metric leb ltb gap zero dataset fuel st k q ((s0, e0, zero, Pre) :: rest) (h, get_radius k h)
        else knn_loop metric leb ltb gap zero dataset fuel st k q rest (h, get_radius k h)).
      { intros fuel rest. cbn [knn_loop].
        rewrite (get_distance_ok dataset st ds ps (Some ts) s0 r H Hr). cbn [bind].
        rewrite (get_point_ok dataset st ds ps (Some ts) s0 v H Hv). cbn [bind].
        rewrite (is_terminal_ok dataset st ds ps ts s0 false H Htb). reflexivity. }
      destruct (match get_radius k h with None => true | Some r => ltb thr r end) eqn:EB.
      + destruct (IHp P M h K) as [n [h' [seen [skipped [N [L [PP K']]]]]]].
        exists (S n), h', seen, skipped. split; [lia|]. split; [|auto].
        intros fuel rest. cbn [Nat.add]. rewrite STEP, L. reflexivity.
      + destruct (get_radius k h) as [rad|] eqn:ER; [|discriminate].
        apply (ltb_false leb ltb gap Hord) in EB.
        exists 1, h, [], (slice ps s0 e0). split; [lia|]. split.
        * intros fuel rest. cbn [Nat.add]. rewrite ER. apply STEP.
        * split; [apply Permutation_refl|]. rewrite app_nil_r.
          apply (skip_correct ps k q P M _ h rad K ER). apply Forall_forall. apply HC. exact EB. }
  induction HV as [s e H1 H2 H3 H4|s e r v H1 H2 H3 H4 H5 HV1 IH1 HV2 IH2]; intros P M h K.
  - destruct (nth_error_ex ds s ltac:(lia)) as [r Hr]. destruct (nth_error_ex ps s H3) as [v Hv].
    destruct (process_all ps k q (slice ps s e) P M h K) as [h' [E K']].
    exists 1, h', (slice ps s e), []. split; [lia|]. split.
    + intros fuel rest thr. cbn [Nat.add knn_loop].
      rewrite (get_distance_ok dataset st ds ps (Some ts) s r H Hr). cbn [bind].
      rewrite (get_point_ok dataset st ds ps (Some ts) s v H Hv). cbn [bind].
      rewrite (is_terminal_ok dataset st ds ps ts s true H H4). cbn [bind].
      rewrite (get_points_ok dataset st ds ps (Some ts) s e H). cbn [bind]. rewrite E. reflexivity.
    + rewrite !app_nil_r. auto.
  - assert (Hv : nth_error ps s = Some v) by apply H5.
    pose proof (mid_bounds2 s e ltac:(lia)) as B2. pose proof (mid_bounds1 s e ltac:(lia)) as B1.
    destruct (process_correct ps k q P M h v K) as [h0 [E0 K0]].
    assert (STEP : forall fuel rest thr,
      knn_loop metric leb ltb gap zero dataset (S fuel) st k q ((s, e, thr, Pre) :: rest) (h, get_radius k h) =
      let fs := if leb (metric q v) r then ((S s, mid_ s e), (mid_ s e, e))
                else ((mid_ s e, e), (S s, mid_ s e)) in
      knn_loop metric leb ltb gap zero dataset fuel st k q
        ((fst (fst fs), snd (fst fs), zero, Pre) ::
         (fst (snd fs), snd (snd fs), gap r (metric q v), Post) :: rest) (h0, get_radius k h0)).
    { intros fuel rest thr. cbn [knn_loop].
      rewrite (get_distance_ok dataset st ds ps (Some ts) s r H H4). cbn [bind].
      rewrite (get_point_ok dataset st ds ps (Some ts) s v H Hv). cbn [bind].
      rewrite (is_terminal_ok dataset st ds ps ts s false H H3). cbn [bind].
      rewrite E0. cbn [bind]. destruct (leb (metric q v) r); reflexivity. }
    assert (HC : forall r0, leb r0 (gap r (metric q v)) = true -> forall x,
      In x (if leb (metric q v) r then slice ps (mid_ s e) e else slice ps (S s) (mid_ s e)) ->
      cut_off ps q (fun g => leb r0 g = true) x).
    { intros r0 Hr0 x. apply (halves_cut ps s e r v q); [lia|exact H5|].
      eapply (ord_trans _ _ _ Hord); [exact Hr0|apply (ord_gap _ _ _ Hord)]. }
    assert (FIN : forall A B seen1 skip1 seen2 skip2 h2,
      Permutation (slice ps s e) (v :: A ++ B) ->
      Permutation A (seen1 ++ skip1) -> Permutation B (seen2 ++ skip2) ->
      kinv ps k q (((P ++ [v]) ++ seen1) ++ seen2) ((M ++ skip1) ++ skip2) h2 ->
      Permutation (slice ps s e) (([v] ++ seen1 ++ seen2) ++ (skip1 ++ skip2)) /\
      kinv ps k q (P ++ ([v] ++ seen1 ++ seen2)) (M ++ (skip1 ++ skip2)) h2).
    { intros A B seen1 skip1 seen2 skip2 h2 Q0 Q1 Q2 K2. split.
      - rewrite Q0, Q1, Q2. simpl. constructor. rewrite <- !app_assoc.
        apply Permutation_app_head. rewrite !app_assoc. apply Permutation_app_tail, Permutation_app_comm.
      - rewrite <- !app_assoc in K2. exact K2. }
    destruct (leb (metric q v) r) eqn:EL.
    + destruct (IH1 (P ++ [v]) M h0 K0) as [n1 [h1 [seen1 [skip1 [N1 [L1 [Q1 K1]]]]]]].
      destruct (POST (mid_ s e) e (gap r (metric q v)) ltac:(lia) HV2 IH2 HC _ _ _ K1)
        as [n2 [h2 [seen2 [skip2 [N2 [L2 [Q2 K2]]]]]]].
      exists (S (n1 + n2)), h2, ([v] ++ seen1 ++ seen2), (skip1 ++ skip2). split; [lia|]. split.
      * intros fuel rest thr. cbn [Nat.add]. rewrite STEP. cbv zeta. cbn [fst snd].
        rewrite <- Nat.add_assoc, L1, L2. reflexivity.
      * apply (FIN _ _ _ _ _ _ _ (slice_node_fst ps s e r v true ltac:(lia) H5) Q1 Q2 K2).
    + destruct (IH2 (P ++ [v]) M h0 K0) as [n1 [h1 [seen1 [skip1 [N1 [L1 [Q1 K1]]]]]]].
      destruct (POST (S s) (mid_ s e) (gap r (metric q v)) ltac:(lia) HV1 IH1 HC _ _ _ K1)
        as [n2 [h2 [seen2 [skip2 [N2 [L2 [Q2 K2]]]]]]].
      exists (S (n1 + n2)), h2, ([v] ++ seen1 ++ seen2), (skip1 ++ skip2). split; [lia|]. split.
      * intros fuel rest thr. cbn [Nat.add]. rewrite STEP. cbv zeta. cbn [fst snd].
        rewrite <- Nat.add_assoc, L1, L2. reflexivity.
      * apply (FIN _ _ _ _ _ _ _ (slice_node_fst ps s e r v false ltac:(lia) H5) Q1 Q2 K2).
Qed.

Lemma knn_rec_correct st ds ps k q s e t :
  holds st ds ps None -> (forall v, In v ps -> metric v q = metric q v) -> htree_ok ps s e t ->
  forall P M h, kinv ps k q P M h ->
  exists h' seen skipped,
    knn_rec metric leb ltb gap dataset st k q t h = Ok h' /\
    Permutation (slice ps s e) (seen ++ skipped) /\
    kinv ps k q (P ++ seen) (M ++ skipped) h'.
Proof.
  intros H Hsym HV.
  induction HV as [s e H1|s e r v l rt H1 H2 H5 HV1 IH1 HV2 IH2]; intros P M h K.
  - destruct (offer_all ps k q (slice ps s e) P M h K) as [h' [E K']].
    exists h', (slice ps s e), []. cbn [knn_rec].
    rewrite (get_points_ok dataset st ds ps None s e H). cbn [bind]. split; [exact E|].
    rewrite !app_nil_r. auto.
  - assert (Hv : nth_error ps s = Some v) by apply H5.
    pose proof (mid_bounds2 s e ltac:(lia)) as B2. pose proof (mid_bounds1 s e ltac:(lia)) as B1.
    destruct (offer_correct ps k q P M h v K) as [h0 [E0 K0]].
    assert (HS : metric v q = metric q v) by (apply Hsym; eapply nth_error_In; eauto).
    cbn [knn_rec]. rewrite HS, E0. cbn [bind].
    assert (HC : forall r0, leb (gap (metric q v) r) r0 = false -> forall x,
      In x (if leb (metric q v) r then slice ps (mid_ s e) e else slice ps (S s) (mid_ s e)) ->
      cut_off ps q (fun g => leb r0 g = true) x).
    { intros r0 Hr0 x. apply (halves_cut ps s e r v q); [lia|exact H5|].
      apply (leb_false_le leb ltb gap Hord), Hr0. }
    assert (FIN : forall A B seen1 skip1 seen2 skip2 h2,
      Permutation (slice ps s e) (v :: A ++ B) ->
      Permutation A (seen1 ++ skip1) -> Permutation B (seen2 ++ skip2) ->
      kinv ps k q (((P ++ [v]) ++ seen1) ++ seen2) ((M ++ skip1) ++ skip2) h2 ->
      Permutation (slice ps s e) (([v] ++ seen1 ++ seen2) ++ (skip1 ++ skip2)) /\
      kinv ps k q (P ++ ([v] ++ seen1 ++ seen2)) (M ++ (skip1 ++ skip2)) h2).
    { intros A B seen1 skip1 seen2 skip2 h2 Q0 Q1 Q2 K2. split.
      - rewrite Q0, Q1, Q2. simpl. constructor. rewrite <- !app_assoc.
        apply Permutation_app_head. rewrite !app_assoc. apply Permutation_app_tail, Permutation_app_comm.
      - rewrite <- !app_assoc in K2. exact K2. }
    destruct (leb (metric q v) r) eqn:EL.
    + destruct (IH1 (P ++ [v]) M h0 K0) as [h1 [seen1 [skip1 [L1 [Q1 K1]]]]].
      rewrite L1. cbn [bind].
      destruct (match get_radius k h1 with None => true | Some rad => leb (gap (metric q v) r) rad end) eqn:EB.
      * destruct (IH2 _ _ _ K1) as [h2 [seen2 [skip2 [L2 [Q2 K2]]]]].
        exists h2, ([v] ++ seen1 ++ seen2), (skip1 ++ skip2). split; [exact L2|].
        apply (FIN _ _ _ _ _ _ _ (slice_node_fst ps s e r v true ltac:(lia) H5) Q1 Q2 K2).
      * destruct (get_radius k h1) as [rad|] eqn:ER; [|discriminate].
        exists h1, ([v] ++ seen1 ++ []), (skip1 ++ slice ps (mid_ s e) e). split; [reflexivity|].
        apply (FIN _ _ _ _ [] _ _ (slice_node_fst ps s e r v true ltac:(lia) H5) Q1 (Permutation_refl _)).
        rewrite app_nil_r. apply (skip_correct ps k q _ _ _ h1 rad K1 ER).
        apply Forall_forall. apply HC, EB.
    + destruct (IH2 (P ++ [v]) M h0 K0) as [h1 [seen1 [skip1 [L1 [Q1 K1]]]]].
      rewrite L1. cbn [bind].
      destruct (match get_radius k h1 with None => true | Some rad => leb (gap (metric q v) r) rad end) eqn:EB.
      * destruct (IH1 _ _ _ K1) as [h2 [seen2 [skip2 [L2 [Q2 K2]]]]].
        exists h2, ([v] ++ seen1 ++ seen2), (skip1 ++ skip2). split; [exact L2|].
        apply (FIN _ _ _ _ _ _ _ (slice_node_fst ps s e r v false ltac:(lia) H5) Q1 Q2 K2).
      * destruct (get_radius k h1) as [rad|] eqn:ER; [|discriminate].
        exists h1, ([v] ++ seen1 ++ []), (skip1 ++ slice ps (S s) (mid_ s e)). split; [reflexivity|].
        apply (FIN _ _ _ _ [] _ _ (slice_node_fst ps s e r v false ltac:(lia) H5) Q1 (Permutation_refl _)).
        rewrite app_nil_r. apply (skip_correct ps k q _ _ _ h1 rad K1 ER).
        apply Forall_forall. apply HC, EB.
Qed.
End VPSearch.
