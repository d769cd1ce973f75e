(** The public statements about union-find, derived from [UnionFindFacts]. *)
From Verif Require Import Base BaseFacts Dict DictFacts ModelUnionFind SpecUnionFind UnionFindFacts.

Section UFP.
Context {A : Type}.
Variable eqb : A -> A -> bool.
Hypothesis Heq : decides_eq eqb.

Lemma generated_join (R : relation A) (Q : relation A) a b :
  (forall x y, R x y <-> generated Q x y) ->
  forall x y, join R a b x y <-> generated (fun u v => Q u v \/ (u = a /\ v = b)) x y.
Proof.
  intros HR x y. split.
  - assert (Up : forall x y, R x y -> generated (fun u v => Q u v \/ (u = a /\ v = b)) x y).
    { intros u v H. apply HR in H. clear - H. induction H.
      - apply rst_step. left. exact H.
      - apply rst_refl.
      - apply rst_sym. exact IHclos_refl_sym_trans.
      - eapply rst_trans; eauto. }
    assert (Hab : generated (fun u v => Q u v \/ (u = a /\ v = b)) a b) by (apply rst_step; right; auto).
    intros [H|[[H1 H2]|[H1 H2]]].
    + apply Up, H.
    + eapply rst_trans; [apply Up, H1|]. eapply rst_trans; [exact Hab|apply Up, H2].
    + eapply rst_trans; [apply Up, H1|]. eapply rst_trans; [apply rst_sym, Hab|apply Up, H2].
  - assert (Rr : forall x, R x x) by (intro; apply HR; apply rst_refl).
    assert (Rs : forall x y, R x y -> R y x) by (intros u v H; apply HR; apply rst_sym; apply HR, H).
    assert (Rt : forall x y z, R x y -> R y z -> R x z).
    { intros u v w H1 H2. apply HR. eapply rst_trans; apply HR; eauto. }
    intro H. induction H as [x y [H|[-> ->]]|x|x y H IH|x y z H1 IH1 H2 IH2]; unfold join in *.
    + left. apply HR. apply rst_step, H.
    + right. left. auto.
    + left. apply Rr.
    + intuition eauto.
    + assert (Rab : forall u v, R u v -> R v u) by exact Rs.
      destruct IH1 as [H|[[H H']|[H H']]], IH2 as [K|[[K K']|[K K']]].
      * left. eauto.
      * right. left. eauto.
      * right. right. eauto.
      * right. left. eauto.
      * right. left. eauto.
      * left. eauto.
      * right. right. eauto.
      * left. eauto.
      * right. right. eauto.
Qed.

Lemma generated_ext (Q Q' : relation A) :
  (forall x y, Q x y <-> Q' x y) -> forall x y, generated Q x y <-> generated Q' x y.
Proof.
  intros H x y. split; intro G; (induction G;
    [apply rst_step; apply H; assumption | apply rst_refl | apply rst_sym; assumption | eapply rst_trans; eauto]).
Qed.

Lemma uf_run_gen items ops :
  forall R u (Q : relation A),
  uf_inv eqb items R u -> (forall x y, R x y <-> generated Q x y) -> only_mentions items ops ->
  exists outs u' R', uf_run eqb u ops = Ok (outs, u') /\ uf_inv eqb items R' u' /\
    length outs = length ops /\
    (forall x y, R' x y <-> generated (fun a b => Q a b \/ united ops a b) x y).
Proof.
  induction ops as [|o ops IH]; intros R u Q I HR HM; cbn [uf_run].
  - exists [], u, R. split; [reflexivity|]. split; [exact I|]. split; [reflexivity|].
    intros x y. rewrite HR. apply generated_ext. intros a b. unfold united. simpl. tauto.
  - assert (HM' : only_mentions items ops) by (intros o' x Ho; apply HM; right; exact Ho).
    destruct o as [x|x y]; cbn [uf_step].
    + destruct (uf_find_correct eqb Heq items R u x I) as [r [u1 [n [E [I1 _]]]]].
      { apply (HM (UFind x)); simpl; auto. }
      rewrite E. cbn [bind].
      destruct (IH R u1 Q I1 HR HM') as [outs [u' [R' [E' [I' [Hl HR']]]]]].
      rewrite E'. cbn [bind]. exists (r :: outs), u', R'. split; [reflexivity|]. split; [exact I'|].
      split; [simpl; lia|]. intros a b. rewrite HR'. apply generated_ext.
      intros c d. unfold united. simpl. intuition discriminate.
    + destruct (uf_union_correct eqb Heq items R u x y I) as [r [u1 [E [I1 _]]]].
      { intros; apply HR; apply rst_refl. }
      { intros a b H. apply HR. apply rst_sym. apply HR, H. }
      { intros a b c H1 H2. apply HR. eapply rst_trans; apply HR; eauto. }
      { apply (HM (UUnion x y)); simpl; auto. }
      { apply (HM (UUnion x y)); simpl; auto. }
      rewrite E. cbn [bind].
      destruct (IH (join R x y) u1 (fun u v => Q u v \/ (u = x /\ v = y)) I1
                  (generated_join R Q x y HR) HM') as [outs [u' [R' [E' [I' [Hl HR']]]]]].
      rewrite E'. cbn [bind]. exists (r :: outs), u', R'. split; [reflexivity|]. split; [exact I'|].
      split; [simpl; lia|]. intros a b. rewrite HR'. apply generated_ext.
      intros c d. unfold united. simpl. split.
      * intros [[H|[-> ->]]|H]; auto.
      * intros [H|[H|H]]; auto. injection H as -> ->. auto.
Qed.

(** State reached by a history, with its invariant. *)
Lemma uf_reach items ops :
  only_mentions items ops ->
  exists outs u R, uf_run eqb (uf_init eqb (Reusable items)) ops = Ok (outs, u) /\
    uf_inv eqb items R u /\ length outs = length ops /\
    (forall x y, R x y <-> generated (united ops) x y).
Proof.
  intro HM.
  destruct (uf_run_gen items ops eq (uf_init eqb (Reusable items)) (fun _ _ => False)
     (uf_init_inv eqb Heq items)) as [outs [u [R [E [I [Hl HR]]]]]]; auto.
  - intros x y. split; [intros ->; apply rst_refl|]. intro H. induction H; try congruence. contradiction.
  - exists outs, u, R. split; [exact E|]. split; [exact I|]. split; [exact Hl|].
    intros x y. rewrite HR. apply generated_ext. intros; tauto.
Qed.

Lemma uf_equivalence items ops :
  only_mentions items ops ->
  exists outs u, uf_run eqb (uf_init eqb (Reusable items)) ops = Ok (outs, u) /\
    length outs = length ops /\
    forall x y, In x items -> In y items ->
      exists rx ux ry uy, uf_find eqb u x = Ok (rx, ux) /\ uf_find eqb u y = Ok (ry, uy) /\
        In rx items /\ generated (united ops) x rx /\
        (rx = ry <-> generated (united ops) x y).
Proof.
  intro HM. destruct (uf_reach items ops HM) as [outs [u [R [E [I [Hl HR]]]]]].
  exists outs, u. split; [exact E|]. split; [exact Hl|]. intros x y Hx Hy.
  destruct (uf_find_correct eqb Heq items R u x I Hx) as [rx [ux [nx [Ex [_ [Lx _]]]]]].
  destruct (uf_find_correct eqb Heq items R u y I Hy) as [ry [uy [ny [Ey [_ [Ly _]]]]]].
  exists rx, ux, ry, uy. split; [exact Ex|]. split; [exact Ey|].
  assert (Hrx := links_end _ _ _ _ Lx).
  split; [apply (inv_dom _ _ _ _ I); eauto|]. split.
  - apply HR. apply (inv_rel _ _ _ _ I x rx nx 0 rx rx Lx); [constructor; exact Hrx|reflexivity].
  - rewrite <- HR. apply (inv_rel _ _ _ _ I x y nx ny rx ry Lx Ly).
Qed.

Lemma uf_find_stable items ops outs u x r u' :
  only_mentions items ops ->
  uf_run eqb (uf_init eqb (Reusable items)) ops = Ok (outs, u) ->
  uf_find eqb u x = Ok (r, u') ->
  forall y, In y items -> exists ry u1 u2, uf_find eqb u y = Ok (ry, u1) /\ uf_find eqb u' y = Ok (ry, u2).
Proof.
  intros HM E Ef y Hy. destruct (uf_reach items ops HM) as [outs' [u0 [R [E' [I [_ HR]]]]]].
  rewrite E in E'. injection E' as -> <-.
  assert (Hx : In x items).
  { unfold uf_find in Ef. apply bind_ok in Ef. destruct Ef as [root [Ef _]].
    cbn [find_root] in Ef. apply bind_ok in Ef. destruct Ef as [pr [Ef _]].
    unfold dget_res in Ef. destruct (dget eqb (uf_parent u) x) as [v|] eqn:D; [|discriminate].
    apply (inv_dom _ _ _ _ I). eauto. }
  destruct (uf_find_correct eqb Heq items R u x I Hx) as [r1 [u1 [n1 [E1 [I1 [L1 [Ref1 _]]]]]]].
  rewrite Ef in E1. injection E1 as <- <-.
  destruct (uf_find_correct eqb Heq items R u y I Hy) as [r2 [u2 [n2 [E2 [I2 [L2 _]]]]]].
  destruct (uf_find_correct eqb Heq items R u' y I1 Hy) as [r3 [u3 [n3 [E3 [I3 [L3 _]]]]]].
  destruct (proj2 Ref1 _ _ _ L2) as [m [_ L4]].
  destruct (links_det _ _ _ _ L3 _ _ L4) as [_ ->].
  exists r2, u2, u3. auto.
Qed.

Lemma uf_union_representative items ops outs u x y :
  only_mentions items ops ->
  uf_run eqb (uf_init eqb (Reusable items)) ops = Ok (outs, u) ->
  In x items -> In y items ->
  exists r u' ux uy, uf_union eqb u x y = Ok (r, u') /\
    uf_find eqb u' x = Ok (r, ux) /\ uf_find eqb u' y = Ok (r, uy).
Proof.
  intros HM E Hx Hy. destruct (uf_reach items ops HM) as [outs' [u0 [R [E' [I [_ HR]]]]]].
  rewrite E in E'. injection E' as -> <-.
  destruct (uf_union_correct eqb Heq items R u x y I) as [r [u1 [E1 [I1 [[n1 L1] [n2 L2]]]]]]; auto.
  { intros; apply HR; apply rst_refl. }
  { intros a b H. apply HR. apply rst_sym. apply HR, H. }
  { intros a b c H1 H2. apply HR. eapply rst_trans; apply HR; eauto. }
  destruct (uf_find_correct eqb Heq items _ u1 x I1 Hx) as [r3 [u3 [n3 [E3 [I3 [L3 _]]]]]].
  destruct (uf_find_correct eqb Heq items _ u1 y I1 Hy) as [r4 [u4 [n4 [E4 [I4 [L4 _]]]]]].
  destruct (links_det _ _ _ _ L1 _ _ L3) as [_ <-]. destruct (links_det _ _ _ _ L2 _ _ L4) as [_ <-].
  exists r, u1, u3, u4. auto.
Qed.

Lemma uf_depth items ops outs u :
  only_mentions items ops ->
  uf_run eqb (uf_init eqb (Reusable items)) ops = Ok (outs, u) ->
  forall x, In x items ->
  exists n r u', links (dget eqb (uf_parent u)) x n r /\ uf_find eqb u x = Ok (r, u') /\
    forall distinct, (forall a, In a distinct <-> In a items) -> n <= Nat.log2 (length distinct).
Proof.
  intros HM E x Hx. destruct (uf_reach items ops HM) as [outs' [u0 [R [E' [I [_ HR]]]]]].
  rewrite E in E'. injection E' as -> <-.
  destruct (uf_find_correct eqb Heq items R u x I Hx) as [r [u1 [n [E1 [_ [L _]]]]]].
  exists n, r, u1. split; [exact L|]. split; [exact E1|]. intros l Hl.
  assert (Il : uf_inv eqb l R u).
  { constructor; try apply I.
    - intro a. rewrite Hl. apply (inv_dom _ _ _ _ I).
    - intros a Ha. apply (inv_root _ _ _ _ I). apply Hl, Ha. }
  assert (B := inv_bound_items eqb l R u x n r Il L).
  apply Nat.log2_le_pow2; [|exact B]. assert (0 < 2 ^ n) by (apply Nat.neq_0_lt_0, Nat.pow_nonzero; lia). lia.
Qed.

Lemma uf_unknown items ops outs u x :
  only_mentions items ops ->
  uf_run eqb (uf_init eqb (Reusable items)) ops = Ok (outs, u) ->
  ~ In x items ->
  uf_find eqb u x = Err KeyError /\
  (forall y, uf_union eqb u x y = Err KeyError) /\
  (forall y, uf_union eqb u y x = Err KeyError).
Proof.
  intros HM E Hx. destruct (uf_reach items ops HM) as [outs' [u0 [R [E' [I [_ HR]]]]]].
  rewrite E in E'. injection E' as -> <-.
  assert (F : forall v, uf_inv eqb items R v -> forall z, ~ In z items -> uf_find eqb v z = Err KeyError).
  { intros v Iv z Hz. unfold uf_find. cbn [find_root]. unfold dget_res at 1.
    destruct (dget eqb (uf_parent v) z) as [w|] eqn:D; [|reflexivity].
    exfalso. apply Hz. apply (inv_dom _ _ _ _ Iv). eauto. }
  split; [apply F; assumption|]. split; intro y; unfold uf_union.
  - rewrite (F u I x Hx). reflexivity.
  - destruct (in_dec (eqb_dec eqb Heq) y items) as [Hy|Hy].
    + destruct (uf_find_correct eqb Heq items R u y I Hy) as [r [u1 [n [E1 [I1 _]]]]].
      rewrite E1. cbn [bind]. rewrite (F u1 I1 x Hx). reflexivity.
    + rewrite (F u I y Hy). reflexivity.
Qed.

(** One-shot iterators. *)
Lemma uf_oneshot l x y :
  In x l -> In y l -> x <> y -> uf_union eqb (uf_init eqb (OneShot l)) x y = Err KeyError.
Proof.
  intros Hx Hy Hne.
  assert (F : forall z, In z l -> uf_find eqb (uf_init eqb (OneShot l)) z = Ok (z, uf_init eqb (OneShot l))).
  { intros z Hz. unfold uf_find, uf_init. cbn [uf_parent uf_size first_iteration second_iteration].
    set (p := dict_of eqb (fun x => x) l).
    assert (D : dget eqb p z = Some z) by (apply (dict_of_in eqb Heq (fun x => x)); exact Hz).
    cbn [find_root compress]. unfold dget_res. rewrite D. cbn [bind].
    rewrite !(eqb_refl eqb Heq). cbn [bind]. rewrite (eqb_refl eqb Heq). reflexivity. }
  unfold uf_union. rewrite (F x Hx). cbn [bind]. rewrite (F y Hy). cbn [bind].
  assert (E : eqb x y = false) by (apply (eqb_false eqb Heq); exact Hne). rewrite E. cbn [negb].
  reflexivity.
Qed.

End UFP.

Lemma nat_eqb_decides : decides_eq Nat.eqb.
Proof. intros x y. apply Nat.eqb_eq. Qed.
Lemma Z_eqb_decides : decides_eq Z.eqb.
Proof. intros x y. apply Z.eqb_eq. Qed.
