(** Proofs about the union-find model. *)
From Verif Require Import Base BaseFacts Dict DictFacts ModelUnionFind SpecUnionFind.

Section UFF.
Context {A : Type}.
Variable eqb : A -> A -> bool.
Hypothesis Heq : decides_eq eqb.
Notation par u := (dget eqb (uf_parent u)).
Notation siz u := (dget eqb (uf_size u)).

Lemma links_det (p : A -> option A) x n r :
  links p x n r -> forall m r', links p x m r' -> n = m /\ r = r'.
Proof.
  induction 1 as [r H|x y n r H Hne HL IH]; intros m r' H2; inversion H2; subst.
  - auto.
  - congruence.
  - congruence.
  - match goal with H3 : p x = Some ?z, HL' : links p ?z ?n0 r' |- _ =>
      rewrite H in H3; injection H3 as <-; destruct (IH _ _ HL') as [-> ->]; auto end.
Qed.

Lemma links_end (p : A -> option A) x n r : links p x n r -> p r = Some r.
Proof. induction 1; auto. Qed.

Lemma links_dom (p : A -> option A) x n r : links p x n r -> exists y, p x = Some y.
Proof. destruct 1; eauto. Qed.

Definition refines (p p' : A -> option A) : Prop :=
  (forall x, (exists y, p x = Some y) <-> (exists y, p' x = Some y)) /\
  (forall x n r, links p x n r -> exists m, m <= n /\ links p' x m r).

Lemma refines_refl p : refines p p.
Proof. split; [tauto|]. intros x n r H. exists n. auto. Qed.

Lemma refines_trans p q s : refines p q -> refines q s -> refines p s.
Proof.
  intros [H1 H2] [H3 H4]. split.
  - intro x. rewrite H1. apply H3.
  - intros x n r H. destruct (H2 x n r H) as [m [Hm L]]. destruct (H4 x m r L) as [m' [Hm' L']].
    exists m'. split; [lia|exact L'].
Qed.

Lemma shortcut_refines p t n r :
  links (dget eqb p) t n r -> t <> r -> refines (dget eqb p) (dget eqb (dset eqb p t r)).
Proof.
  intros HL Hne. assert (Hr := links_end _ _ _ _ HL). destruct (links_dom _ _ _ _ HL) as [y0 Hy0]. split.
  - intro x. rewrite (dget_dset eqb Heq). destruct (eqb x t) eqn:E; [|tauto].
    apply Heq in E. subst. split; eauto.
  - intros x k r' H. induction H as [r' H|x y k r' H Hxy HL' IH].
    + exists 0. split; [lia|]. constructor. rewrite (dget_dset eqb Heq).
      destruct (eqb r' t) eqn:E; [|exact H]. apply Heq in E. subst r'.
      assert (D := links_det _ _ _ _ HL 0 t (links_root _ _ H)). destruct D; congruence.
    + destruct IH as [m [Hm Lm]].
      destruct (eqb x t) eqn:E.
      * apply Heq in E. subst x.
        destruct (links_det _ _ _ _ HL (S k) r' (links_step _ _ _ _ _ H Hxy HL')) as [_ <-].
        exists 1. split; [lia|]. apply (links_step _ t r).
        -- apply (dget_dset_same eqb Heq).
        -- exact Hne.
        -- constructor. rewrite (dget_dset_other eqb Heq) by congruence. exact Hr.
      * exists (S m). split; [lia|]. apply (links_step _ x y); auto.
        rewrite (dget_dset_other eqb Heq); auto. apply (eqb_false eqb Heq). exact E.
Qed.

Lemma find_root_correct p x n r :
  links (dget eqb p) x n r -> forall fuel, n < fuel -> find_root eqb fuel p x = Ok r.
Proof.
  induction 1 as [r H|x y n r H Hne HL IH]; intros [|fuel] Hf; try lia; cbn [find_root];
    unfold dget_res; rewrite H; cbn [bind].
  - rewrite (eqb_refl eqb Heq). reflexivity.
  - assert (E : eqb x y = false) by (apply (eqb_false eqb Heq); exact Hne). rewrite E. apply IH. lia.
Qed.

Lemma dset_length_present {V} (d : list (A * V)) k v w :
  dget eqb d k = Some w -> length (dset eqb d k v) = length d.
Proof.
  induction d as [|[a b] d IH]; simpl; [discriminate|].
  destruct (eqb k a); simpl; intro H; [reflexivity|]. rewrite IH; auto.
Qed.

Lemma compress_correct n :
  forall fuel p t r, links (dget eqb p) t n r -> n < fuel ->
  exists p', compress eqb fuel p t r = Ok p' /\ refines (dget eqb p) (dget eqb p') /\ length p' = length p.
Proof.
  induction n as [n IH] using (well_founded_induction lt_wf).
  intros [|fuel] p t r HL Hf; [lia|]. cbn [compress].
  destruct (eqb t r) eqn:E.
  - exists p. split; [reflexivity|]. split; [apply refines_refl|reflexivity].
  - apply (eqb_false eqb Heq) in E. inversion HL as [r0 H0|x y n' r0 H0 Hne HL']; subst; [congruence|].
    unfold dget_res. rewrite H0. cbn [bind].
    assert (HR := shortcut_refines p t (S n') r HL E).
    destruct (proj2 HR y n' r HL') as [m [Hm Lm]].
    destruct (IH m ltac:(lia) fuel (dset eqb p t r) y r Lm ltac:(lia)) as [p' [E' [R' L']]].
    exists p'. split; [exact E'|]. split; [eapply refines_trans; eauto|].
    rewrite L'. apply (dset_length_present p t r y). exact H0.
Qed.

(** The representation invariant: [R] is the relation represented. *)
Record uf_inv (items : list A) (R : relation A) (u : uf A) : Prop := {
  inv_dom : forall x, In x items <-> exists y, par u x = Some y;
  inv_root : forall x, In x items -> exists n r, links (par u) x n r;
  inv_rel : forall x y n m r r', links (par u) x n r -> links (par u) y m r' -> (r = r' <-> R x y);
  inv_size : forall r, par u r = Some r ->
    exists l, NoDup l /\ siz u r = Some (length l) /\ (forall x, In x l <-> exists n, links (par u) x n r);
  inv_height : forall x n r, links (par u) x n r -> exists s, siz u r = Some s /\ 2 ^ n <= s }.

Lemma inv_bound items R u x n r :
  uf_inv items R u -> NoDup (dkeys (uf_parent u)) \/ True ->
  links (par u) x n r -> 2 ^ n <= length (uf_parent u) /\ n < length (uf_parent u).
Proof.
  intros I _ HL. destruct (inv_height _ _ _ I x n r HL) as [s [Hs Hp]].
  destruct (inv_size _ _ _ I r (links_end _ _ _ _ HL)) as [l [Hn [Hs2 Hl]]].
  rewrite Hs in Hs2. injection Hs2 as ->.
  assert (Hle : length l <= length (uf_parent u)).
  { unfold lt. rewrite <- (map_length fst (uf_parent u)). apply NoDup_incl_length; [exact Hn|].
    intros y Hy. apply Hl in Hy. destruct Hy as [k Hk]. destruct (links_dom _ _ _ _ Hk) as [z Hz].
    apply (dget_in eqb Heq). eauto. }
  split; [lia|]. assert (n < 2 ^ n) by (apply Nat.pow_gt_lin_r; lia). lia.
Qed.

Lemma inv_bound_items items R u x n r :
  uf_inv items R u -> links (par u) x n r -> 2 ^ n <= length items.
Proof.
  intros I HL. destruct (inv_height _ _ _ I x n r HL) as [s [Hs Hp]].
  destruct (inv_size _ _ _ I r (links_end _ _ _ _ HL)) as [l [Hn [Hs2 Hl]]].
  rewrite Hs in Hs2. injection Hs2 as ->.
  assert (Hle : length l <= length items).
  { apply NoDup_incl_length; [exact Hn|].
    intros y Hy. apply Hl in Hy. destruct Hy as [k Hk]. destruct (links_dom _ _ _ _ Hk) as [z Hz].
    apply (inv_dom _ _ _ I). eauto. }
  lia.
Qed.

Lemma inv_refines items R u p' :
  uf_inv items R u -> refines (par u) (dget eqb p') -> uf_inv items R (mkuf p' (uf_size u)).
Proof.
  intros I [HD HL].
  assert (Back : forall x m r, links (dget eqb p') x m r -> exists n, m <= n /\ links (par u) x n r).
  { intros x m r H. destruct (links_dom _ _ _ _ H) as [y Hy].
    assert (Hx : In x items). { apply (inv_dom _ _ _ I). apply HD. eauto. }
    destruct (inv_root _ _ _ I x Hx) as [n [r' L]]. destruct (HL x n r' L) as [m' [Hm' L']].
    destruct (links_det _ _ _ _ H _ _ L') as [-> ->]. eauto. }
  constructor; cbn [uf_parent uf_size].
  - intro x. rewrite (inv_dom _ _ _ I x). apply HD.
  - intros x Hx. destruct (inv_root _ _ _ I x Hx) as [n [r L]].
    destruct (HL x n r L) as [m [_ L']]. eauto.
  - intros x y n m r r' H1 H2. destruct (Back _ _ _ H1) as [n1 [_ L1]].
    destruct (Back _ _ _ H2) as [n2 [_ L2]]. apply (inv_rel _ _ _ I x y n1 n2 r r' L1 L2).
  - intros r Hr.
    destruct (Back r 0 r (links_root _ _ Hr)) as [n [_ L]].
    destruct (inv_size _ _ _ I r (links_end _ _ _ _ L)) as [l [Hn [Hs Hl]]].
    exists l. split; [exact Hn|]. split; [exact Hs|].
    intro x. rewrite Hl. split; intros [k Hk].
    + destruct (HL _ _ _ Hk) as [m [_ Lm]]. eauto.
    + destruct (Back _ _ _ Hk) as [m [_ Lm]]. eauto.
  - intros x n r H. destruct (Back _ _ _ H) as [m [Hm L]].
    destruct (inv_height _ _ _ I x m r L) as [s [Hs Hp]]. exists s. split; [exact Hs|].
    assert (2 ^ n <= 2 ^ m) by (apply Nat.pow_le_mono_r; lia). lia.
Qed.

Lemma uf_find_correct items R u x :
  uf_inv items R u -> In x items ->
  exists r u' n, uf_find eqb u x = Ok (r, u') /\ uf_inv items R u' /\
    links (par u) x n r /\ refines (par u) (par u') /\ uf_size u' = uf_size u.
Proof.
  intros I Hx. destruct (inv_root _ _ _ I x Hx) as [n [r L]].
  destruct (inv_bound items R u x n r I (or_intror Logic.I) L) as [_ Hn].
  unfold uf_find. rewrite (find_root_correct _ x n r L) by lia. cbn [bind].
  destruct (compress_correct n (S (length (uf_parent u))) (uf_parent u) x r L ltac:(lia)) as [p' [E [HR _]]].
  rewrite E. cbn [bind]. exists r, (mkuf p' (uf_size u)), n. split; [reflexivity|].
  split; [apply inv_refines; assumption|]. split; [exact L|]. split; [exact HR|reflexivity].
Qed.

(** Relation after uniting [a] and [b]. *)
Definition join (R : relation A) (a b : A) : relation A :=
  fun x y => R x y \/ (R x a /\ R b y) \/ (R x b /\ R a y).

Lemma link_inv items R u a b n m ra rb keep move sa sb :
  uf_inv items R u -> (forall x y, R x y -> R y x) ->
  links (par u) a n ra -> links (par u) b m rb -> ra <> rb ->
  siz u ra = Some sa -> siz u rb = Some sb ->
  (keep = ra /\ move = rb /\ sb <= sa \/ keep = rb /\ move = ra /\ sa <= sb) ->
  uf_inv items (join R a b)
    (mkuf (dset eqb (uf_parent u) move keep) (dset eqb (uf_size u) keep (sa + sb))).
Proof.
  intros I Hsym La Lb Hne Hsa Hsb Hkm.
  assert (Hkmne : keep <> move) by (destruct Hkm as [[-> [-> _]]|[-> [-> _]]]; congruence).
  assert (Rk : par u keep = Some keep).
  { destruct Hkm as [[-> _]|[-> _]]; eapply links_end; eauto. }
  assert (Rm : par u move = Some move).
  { destruct Hkm as [[_ [-> _]]|[_ [-> _]]]; eapply links_end; eauto. }
  set (p' := dset eqb (uf_parent u) move keep).
  assert (Fwd : forall x k r, links (par u) x k r ->
     (r = move -> links (dget eqb p') x (S k) keep) /\ (r <> move -> links (dget eqb p') x k r)).
  { intros x k r H. induction H as [r H|x y k r H Hxy HL IH].
    - split; intro Hr.
      + subst r. apply (links_step _ move keep); [apply (dget_dset_same eqb Heq)|congruence|].
        constructor. unfold p'. rewrite (dget_dset_other eqb Heq) by congruence. exact Rk.
      + constructor. unfold p'. rewrite (dget_dset_other eqb Heq) by congruence. exact H.
    - assert (Hxm : x <> move) by (intros ->; congruence).
      assert (Hx' : dget eqb p' x = Some y) by (unfold p'; rewrite (dget_dset_other eqb Heq) by congruence; exact H).
      destruct IH as [IH1 IH2]. split; intro Hr; apply (links_step _ x y); auto. }
  assert (Dom : forall x, (exists y, par u x = Some y) <-> (exists y, dget eqb p' x = Some y)).
  { intro x. unfold p'. rewrite (dget_dset eqb Heq). destruct (eqb x move) eqn:E; [|tauto].
    apply Heq in E. subst. split; eauto. }
  assert (Back : forall x k r', links (dget eqb p') x k r' ->
     exists k0 r, links (par u) x k0 r /\
       ((r = move /\ r' = keep /\ k = S k0) \/ (r <> move /\ r' = r /\ k = k0))).
  { intros x k r' H. destruct (links_dom _ _ _ _ H) as [y Hy].
    assert (Hx : In x items). { apply (inv_dom _ _ _ I). apply Dom. eauto. }
    destruct (inv_root _ _ _ I x Hx) as [k0 [r L]]. exists k0, r. split; [exact L|].
    destruct (Fwd x k0 r L) as [F1 F2]. destruct (eqb_dec eqb Heq r move) as [E|E].
    - left. destruct (links_det _ _ _ _ H _ _ (F1 E)) as [-> ->]. auto.
    - right. destruct (links_det _ _ _ _ H _ _ (F2 E)) as [-> ->]. auto. }
  assert (Rel := inv_rel _ _ _ I).
  assert (Key : forall x k r, links (par u) x k r ->
     (r = ra <-> R x a) /\ (r = rb <-> R x b)).
  { intros x k r L. split; [apply (Rel x a k n r ra L La)|apply (Rel x b k m r rb L Lb)]. }
  constructor; cbn [uf_parent uf_size]; fold p'.
  - intro x. rewrite (inv_dom _ _ _ I x). apply Dom.
  - intros x Hx. destruct (inv_root _ _ _ I x Hx) as [k [r L]]. destruct (Fwd x k r L) as [F1 F2].
    destruct (eqb_dec eqb Heq r move) as [E|E]; eauto.
  - intros x y k1 k2 r1 r2 H1 H2.
    destruct (Back _ _ _ H1) as [k1' [q1 [L1 B1]]]. destruct (Back _ _ _ H2) as [k2' [q2 [L2 B2]]].
    destruct (Key x k1' q1 L1) as [Kxa Kxb]. destruct (Key y k2' q2 L2) as [Kya Kyb].
    assert (Kxy := Rel x y k1' k2' q1 q2 L1 L2).
    assert (Sya : R y a <-> R a y) by (split; apply Hsym).
    assert (Syb : R y b <-> R b y) by (split; apply Hsym).
    unfold join. rewrite <- Kxy, <- Kxa, <- Kxb, <- Sya, <- Syb, <- Kya, <- Kyb.
    destruct Hkm as [[-> [-> _]]|[-> [-> _]]];
      destruct B1 as [[B1 [C1 _]]|[B1 [C1 _]]], B2 as [[B2 [C2 _]]|[B2 [C2 _]]]; subst r1 r2;
      intuition congruence.
  - intros r Hr.
    assert (Hrm : r <> move).
    { intros ->. unfold p' in Hr. rewrite (dget_dset_same eqb Heq) in Hr. congruence. }
    assert (Hr0 : par u r = Some r).
    { unfold p' in Hr. rewrite (dget_dset_other eqb Heq) in Hr by congruence. exact Hr. }
    destruct (inv_size _ _ _ I r Hr0) as [l [Hn [Hs Hl]]].
    destruct (eqb_dec eqb Heq r keep) as [->|Hrk].
    + destruct (inv_size _ _ _ I move Rm) as [lm [Hnm [Hsm Hlm]]].
      exists (l ++ lm). split; [|split].
      * assert (Disj : forall x, In x l -> ~ In x lm).
        { intros x H1 H2. apply Hl in H1. apply Hlm in H2. destruct H1 as [k1 H1], H2 as [k2 H2].
          destruct (links_det _ _ _ _ H1 _ _ H2). congruence. }
        clear - Hn Hnm Disj. induction l as [|x l IH]; simpl; auto.
        inversion Hn; subst. constructor.
        -- rewrite in_app_iff. intros [H|H]; [contradiction|]. apply (Disj x); [left; auto|exact H].
        -- apply IH; auto. intros y Hy. apply Disj. right; exact Hy.
      * rewrite (dget_dset_same eqb Heq), app_length. f_equal.
        destruct Hkm as [[-> [-> _]]|[-> [-> _]]];
          [rewrite Hs in Hsa; rewrite Hsm in Hsb|rewrite Hs in Hsb; rewrite Hsm in Hsa];
          injection Hsa; injection Hsb; intros; lia.
      * intro x. rewrite in_app_iff, Hl, Hlm. split.
        -- intros [[k H]|[k H]]; destruct (Fwd _ _ _ H) as [F1 F2]; [exists k|exists (S k)]; auto.
        -- intros [k H]. destruct (Back _ _ _ H) as [k0 [q [L [[-> _]|[_ [<- _]]]]]]; eauto.
    + exists l. split; [exact Hn|]. split.
      * rewrite (dget_dset_other eqb Heq) by congruence. exact Hs.
      * intro x. rewrite Hl. split; intros [k H].
        -- destruct (Fwd _ _ _ H) as [F1 F2]. eauto.
        -- destruct (Back _ _ _ H) as [k0 [q [L [[_ [E _]]|[_ [<- _]]]]]]; [congruence|eauto].
  - intros x k r H. destruct (Back _ _ _ H) as [k0 [q [L B]]].
    destruct (inv_height _ _ _ I x k0 q L) as [s [Hs Hp]].
    destruct B as [[-> [-> ->]]|[Hqm [-> ->]]].
    + exists (sa + sb). split; [apply (dget_dset_same eqb Heq)|].
      rewrite Nat.pow_succ_r'.
      destruct Hkm as [[-> [-> Hle]]|[-> [-> Hle]]]; [rewrite Hs in Hsb; injection Hsb|rewrite Hs in Hsa; injection Hsa]; intros; lia.
    + destruct (eqb_dec eqb Heq q keep) as [->|Hqk].
      * exists (sa + sb). split; [apply (dget_dset_same eqb Heq)|].
        destruct Hkm as [[-> [-> Hle]]|[-> [-> Hle]]]; [rewrite Hs in Hsa; injection Hsa|rewrite Hs in Hsb; injection Hsb]; intros; lia.
      * exists s. split; [|exact Hp]. rewrite (dget_dset_other eqb Heq) by congruence. exact Hs.
Qed.

Lemma uf_inv_ext items R R' u :
  (forall x y, In x items -> In y items -> (R x y <-> R' x y)) -> uf_inv items R u -> uf_inv items R' u.
Proof.
  intros H I. constructor; try apply I.
  intros x y n m r r' Lx Ly.
  assert (Hx : In x items) by (apply (inv_dom _ _ _ I); eapply links_dom; eauto).
  assert (Hy : In y items) by (apply (inv_dom _ _ _ I); eapply links_dom; eauto).
  rewrite <- (H x y Hx Hy). apply (inv_rel _ _ _ I x y n m r r' Lx Ly).
Qed.

Lemma uf_union_correct items R u a b :
  uf_inv items R u -> (forall x, In x items -> R x x) -> (forall x y, R x y -> R y x) ->
  (forall x y z, R x y -> R y z -> R x z) ->
  In a items -> In b items ->
  exists r u', uf_union eqb u a b = Ok (r, u') /\ uf_inv items (join R a b) u' /\
    (exists n, links (par u') a n r) /\ (exists n, links (par u') b n r).
Proof.
  intros I Hrefl Hsym Htrans Ha Hb. unfold uf_union.
  destruct (uf_find_correct items R u a I Ha) as [ra [u1 [na [E1 [I1 [L1 [R1 S1]]]]]]].
  rewrite E1. cbn [bind].
  destruct (uf_find_correct items R u1 b I1 Hb) as [rb [u2 [nb [E2 [I2 [L2 [R2 S2]]]]]]].
  rewrite E2. cbn [bind].
  destruct (proj2 R1 _ _ _ L1) as [na1 [_ La1]].
  destruct (proj2 R2 _ _ _ La1) as [na2 [_ La2]].
  destruct (proj2 R2 _ _ _ L2) as [nb2 [_ Lb2]].
  destruct (eqb ra rb) eqn:E; cbn [negb].
  - apply Heq in E. subst rb. exists ra, u2. split; [reflexivity|].
    split; [|split; eauto].
    apply (uf_inv_ext items R); [|exact I2].
    assert (Rab : R a b) by (apply (inv_rel _ _ _ I2 a b na2 nb2 ra ra La2 Lb2); reflexivity).
    intros x y Hx Hy. unfold join. split; [auto|]. intros [H|[[H1 H2]|[H1 H2]]]; auto.
    + apply (Htrans x a y H1). apply (Htrans a b y Rab H2).
    + apply (Htrans x b y H1). apply (Htrans b a y (Hsym _ _ Rab) H2).
  - apply (eqb_false eqb Heq) in E.
    destruct (inv_height _ _ _ I2 a na2 ra La2) as [sa [Hsa _]].
    destruct (inv_height _ _ _ I2 b nb2 rb Lb2) as [sb [Hsb _]].
    unfold dget_res. rewrite Hsa. cbn [bind]. rewrite Hsb. cbn [bind].
    destruct (Nat.ltb_spec sa sb) as [Hlt|Hge].
    + assert (I3 : uf_inv items (join R a b)
        (mkuf (dset eqb (uf_parent u2) ra rb) (dset eqb (uf_size u2) rb (sa + sb)))).
      { apply (link_inv items R u2 a b na2 nb2 ra rb rb ra sa sb); auto. right. repeat split; lia. }
      eexists _, _. split; [reflexivity|]. split; [exact I3|].
      destruct (inv_root _ _ _ I3 a Ha) as [n1 [r1 M1]].
      destruct (inv_root _ _ _ I3 b Hb) as [n2 [r2 M2]].
      assert (Hr : r1 = r2).
      { apply (inv_rel _ _ _ I3 a b n1 n2 r1 r2 M1 M2). right. left. auto. }
      assert (Hrb : r2 = rb).
      { destruct (inv_root _ _ _ I3 rb) as [n3 [r3 M3]].
        { apply (inv_dom _ _ _ I2). exists rb. eapply links_end; eauto. }
        assert (r3 = rb).
        { assert (Hp : dget eqb (dset eqb (uf_parent u2) ra rb) rb = Some rb).
          { rewrite (dget_dset_other eqb Heq) by congruence. eapply links_end; eauto. }
          destruct (links_det _ _ _ _ M3 0 rb (links_root _ _ Hp)). auto. }
        subst r3. symmetry. apply (inv_rel _ _ _ I3 rb b n3 n2 rb r2 M3 M2). left.
        apply (inv_rel _ _ _ I2 rb b 0 nb2 rb rb); [constructor; eapply links_end; eauto|exact Lb2|reflexivity]. }
      subst. eauto.
    + assert (I3 : uf_inv items (join R a b)
        (mkuf (dset eqb (uf_parent u2) rb ra) (dset eqb (uf_size u2) ra (sa + sb)))).
      { apply (link_inv items R u2 a b na2 nb2 ra rb ra rb sa sb); auto. }
      eexists _, _. split; [reflexivity|]. split; [exact I3|].
      destruct (inv_root _ _ _ I3 a Ha) as [n1 [r1 M1]].
      destruct (inv_root _ _ _ I3 b Hb) as [n2 [r2 M2]].
      assert (Hr : r1 = r2).
      { apply (inv_rel _ _ _ I3 a b n1 n2 r1 r2 M1 M2). right. left. auto. }
      assert (Hra : r1 = ra).
      { destruct (inv_root _ _ _ I3 ra) as [n3 [r3 M3]].
        { apply (inv_dom _ _ _ I2). exists ra. eapply links_end; eauto. }
        assert (r3 = ra).
        { assert (Hp : dget eqb (dset eqb (uf_parent u2) rb ra) ra = Some ra).
          { rewrite (dget_dset_other eqb Heq) by congruence. eapply links_end; eauto. }
          destruct (links_det _ _ _ _ M3 0 ra (links_root _ _ Hp)). auto. }
        subst r3. symmetry. apply (inv_rel _ _ _ I3 ra a n3 n1 ra r1 M3 M1). left.
        apply (inv_rel _ _ _ I2 ra a 0 na2 ra ra); [constructor; eapply links_end; eauto|exact La2|reflexivity]. }
      subst. eauto.
Qed.

Lemma uf_init_inv items : uf_inv items eq (uf_init eqb (Reusable items)).
Proof.
  unfold uf_init. cbn [first_iteration second_iteration].
  set (p := dict_of eqb (fun x => x) items). set (s := dict_of eqb (fun _ : A => 1) items).
  assert (P1 : forall x, In x items -> dget eqb p x = Some x) by (intros; apply (dict_of_in eqb Heq); auto).
  assert (P2 : forall x y, dget eqb p x = Some y -> In x items /\ y = x).
  { intros x y H. destruct (in_dec (eqb_dec eqb Heq) x items) as [Hx|Hx].
    - rewrite (P1 x Hx) in H. injection H as <-. auto.
    - unfold p in H; rewrite (dict_of_notin eqb Heq) in H by exact Hx. discriminate. }
  assert (L : forall x n r, links (dget eqb p) x n r -> n = 0 /\ r = x /\ In x items).
  { intros x n r H. destruct H as [r H|x y n r H Hne HL].
    - apply P2 in H. tauto.
    - apply P2 in H. destruct H as [_ ->]. congruence. }
  constructor; cbn [uf_parent uf_size].
  - intro x. split; [eauto|]. intros [y Hy]. apply P2 in Hy. tauto.
  - intros x Hx. exists 0, x. constructor. auto.
  - intros x y n m r r' H1 H2. apply L in H1. apply L in H2. intuition congruence.
  - intros r Hr. apply P2 in Hr. destruct Hr as [Hr _]. exists [r]. split; [|split].
    + constructor; [simpl; tauto|constructor].
    + apply (dict_of_in eqb Heq (fun _ => 1)). exact Hr.
    + intro x. simpl. split.
      * intros [<-|[]]. exists 0. constructor. auto.
      * intros [n H]. apply L in H. intuition congruence.
  - intros x n r H. apply L in H. destruct H as [-> [-> Hx]]. exists 1. split; [|simpl; lia].
    apply (dict_of_in eqb Heq (fun _ => 1)). exact Hx.
Qed.
End UFF.
