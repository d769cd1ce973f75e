(** Fitting clustering objects and estimators. *)
From Coq Require Import String.
From Verif Require Import Base BaseFacts Dict DictFacts ModelUnionFind ModelCore ModelObjects SpecObjects ObjectFacts
  ObjectProp ModelValidate SpecValidate ValidateProp ModelLearn SpecLearn LearnLogic LearnFacts LearnStable LearnProp.
Open Scope nat_scope.
Open Scope list_scope.

Section Fit.
Context {F O : Type}.
Variable is_nan : F -> bool.
Variable is_inf : F -> bool.
Variable to_float : O -> res F.
Notation point := (ndarray F O).
Variable classes : nat -> class.
Variable beh : nat -> behaviour F O.
Variables c_tcover c_tclust c_failsafe : nat.
Hypothesis CO : classes_ok classes beh c_tcover c_tclust c_failsafe.
Notation inv := (inv classes).
Notation rely := (rely classes).
Notation adv := (adv classes).
Notation ok := (ok classes).
Notation cover_of := (cover_of classes beh).
Notation clust_of := (clust_of is_nan is_inf to_float classes beh).
Notation clustering_of := (clustering_of is_nan is_inf to_float classes beh).
Notation behaves := (behaves beh).
Notation cloneable := (cloneable classes).
Notation shares := (shares beh).
Notation post A := (res A -> (nat -> Prop) -> heap -> (nat -> nat) -> Prop).
Notation fit_works := (fit_works is_nan is_inf to_float classes beh).
Notation fit_clust := (fit_clust is_nan is_inf to_float classes beh c_tcover c_tclust).
Notation keep_share := (shares_kept classes beh c_tcover c_tclust c_failsafe CO).
Notation keep_clust := (clust_of_kept is_nan is_inf to_float classes beh).
Notation keep_cover := (cover_of_kept classes beh).

Lemma adv_step own1 h1 r1 own2 h2 r2 own3 h3 r3 :
  adv own1 h1 r1 own2 h2 r2 -> adv own2 h2 r2 own3 h3 r3 -> adv own1 h1 r1 own3 h3 r3.
Proof. apply adv_trans. Qed.

Lemma pname_clustering : param_name "clustering". Proof. pname. Qed.
Lemma pname_verbose : param_name "verbose". Proof. pname. Qed.

Lemma clust_share_wrapped h r r' l : behaves h r IsFailSafe -> attr h r "clustering" = Some (VRef r') -> l = r' \/ shares h r' l -> shares h r l.
Proof. intros B A [->|S]; [constructor; assumption|eapply sh_below; eauto]. Qed.

(** The [try] block of FailSafeClustering.fit. *)
Lemma try_ok fitc bound r l1 c xs (own : nat -> Prop) h rank :
  fit_works fitc bound -> inv h rank -> own r -> r < length h -> attr h r "_clustering" = Some (VRef l1) ->
  clust_of h l1 c -> own l1 -> l1 <> r -> (forall l, shares h l1 l -> own l /\ l <> r) -> enough beh bound h rank l1 ->
  ok (prg w1 <- get r "_clustering";
      prg l1' <- lift (as_ref w1);
      prg _ <- fitc l1' xs;
      prg w2 <- get r "_clustering";
      prg l2 <- lift (as_ref w2);
      prg lbls <- get l2 "labels_";
      put r "labels_" lbls) own h rank
    (fun x own' h' rank' => match c xs with
                  | Ok lbls => x = Ok tt /\ attr h' r "labels_" = Some (VLabels lbls)
                  | Err e => x = Err e
                  end).
Proof.
  intros FW I Ow Lr A C Ow1 Hne Sh En.
  apply bind_get with (v := VRef l1); [exact I|auto|exact A|]. intros h1 rank1 R1. pose proof R1 as [K1 [I1 [Rk1 S1]]].
  cbn [as_ref]. rewrite lift_bind. pose proof (clust_of_lt _ _ _ _ _ _ _ _ C) as L1.
  eapply ok_seq; [exact I1|apply (ok_frame classes (fitc l1 xs) (fun l => own l /\ l <> r) own h1 rank1 (fit_post c l1 xs)); [tauto|]| |].
  - apply FW.
    + exact I1.
    + apply (keep_clust h rank h1 rank1); assumption.
    + auto.
    + intros l S. apply Sh. apply (keep_share h rank h1 rank1); assumption.
    + eapply enough_adv; [apply rely_adv, R1|exact L1|exact En].
  - intros e own' h' rank' [own0 [P _]] _. unfold fit_post in P.
    destruct (c xs); [destruct P as [P _]; discriminate|injection P as ->; reflexivity].
  - intros [] own2 h2 rank2 [own0 [P [_ Un]]] A2. unfold fit_post in P. pose proof (adv_inv _ _ _ _ _ _ _ A2) as I2.
    pose proof (kept_length _ _ K1) as Lk.
    destruct (c xs) as [lbls|e]; [|discriminate P]. destruct P as [_ P].
    apply bind_get with (v := VRef l1); [exact I2|left; eapply adv_own; eassumption| |].
    { unfold attr. rewrite Un; [|exact Ow|tauto|lia]. rewrite S1 by assumption. exact A. }
    intros h3 rank3 R3. pose proof R3 as [K3 [I3 [_ S3]]]. cbn [as_ref]. rewrite lift_bind.
    assert (L2 : l1 < length h2) by (eapply adv_lt; [exact A2|lia]).
    apply bind_get with (v := VLabels lbls); [exact I3|left; eapply adv_own; eassumption| |].
    { unfold attr. rewrite S3; [exact P|eapply adv_own; eassumption|exact L2]. }
    intros h4 rank4 R4. pose proof R4 as [K4 [I4 _]].
    apply ok_put; [exact I4| |eapply adv_own; eassumption|reflexivity|].
    + pose proof (kept_length _ _ K4). pose proof (kept_length _ _ K3). pose proof (kept_length _ _ (adv_kept _ _ _ _ _ _ _ A2)). lia.
    + intros h5 rank5 _ E5 _. auto.
Qed.

Lemma failsafe_body fitc bound r v vb c0 xs (own : nat -> Prop) h rank :
  fit_works fitc bound -> inv h rank -> behaves h r IsFailSafe -> own r -> (forall l, shares h r l -> own l) ->
  attr h r "clustering" = Some v -> attr h r "verbose" = Some vb ->
  (v = VNone /\ c0 = trivial_clustering \/ exists r', v = VRef r' /\ clust_of h r' c0 /\ rank r' < bound) ->
  ok (prg v <- get r "clustering";
      prg w <- match v with VNone => prg t <- new (mkobj c_tclust []); lift (Ok (VRef t)) | _ => lift (Ok v) end;
      prg _ <- put r "_clustering" w;
      prg vb <- get r "verbose";
      prg _ <- put r "_verbose" vb;
      pcatch
        (prg w1 <- get r "_clustering";
         prg l1 <- lift (as_ref w1);
         prg _ <- fitc l1 xs;
         prg w2 <- get r "_clustering";
         prg l2 <- lift (as_ref w2);
         prg lbls <- get l2 "labels_";
         put r "labels_" lbls)
        (fun e => match e with
                  | ValueError => put r "labels_" (VLabels (map (fun _ => 0%Z) xs))
                  | _ => lift (Err e)
                  end)) own h rank
    (fit_post (failsafe_clustering (Some c0)) r xs).
Proof.
  intros FW I B Ow Sh Av Avb Hv. pose proof (behaves_lt _ _ _ _ B) as Lr.
  apply bind_get with (v := v); [exact I|auto|exact Av|]. intros h1 rank1 R1. pose proof R1 as [K1 [I1 [Rk1 S1]]].
  assert (G : forall l1 (own0 : nat -> Prop) h0 rank0, adv own h rank own0 h0 rank0 -> clust_of h0 l1 c0 -> own0 l1 -> l1 <> r ->
    (forall l, shares h0 l1 l -> own0 l /\ l <> r) -> enough beh bound h0 rank0 l1 ->
    ok (prg _ <- put r "_clustering" (VRef l1);
      prg vb <- get r "verbose";
      prg _ <- put r "_verbose" vb;
      pcatch
        (prg w1 <- get r "_clustering";
         prg l1 <- lift (as_ref w1);
         prg _ <- fitc l1 xs;
         prg w2 <- get r "_clustering";
         prg l2 <- lift (as_ref w2);
         prg lbls <- get l2 "labels_";
         put r "labels_" lbls)
        (fun e => match e with
                  | ValueError => put r "labels_" (VLabels (map (fun _ => 0%Z) xs))
                  | _ => lift (Err e)
                  end)) own0 h0 rank0 (fit_post (failsafe_clustering (Some c0)) r xs)).
  { intros l1 own0 h0 rank0 A0 C0 Ow1 Hne Sh1 En. pose proof (adv_inv _ _ _ _ _ _ _ A0) as I0.
    pose proof (clust_of_lt _ _ _ _ _ _ _ _ C0) as L1.
    assert (Or : own0 r) by (eapply adv_own; eassumption). assert (L0 : r < length h0) by (eapply adv_lt; eassumption).
    apply bind_put; [exact I0|exact L0|exact Or|reflexivity|]. intros h2 rank2 A2 E2 _.
    pose proof (adv_inv _ _ _ _ _ _ _ A2) as I2. pose proof (adv_kept _ _ _ _ _ _ _ A2) as K2.
    apply bind_get with (v := vb); [exact I2|auto| |].
    { apply (kept_attr_some h); [eapply kept_trans; [eapply adv_kept, A0|exact K2]|apply pname_verbose|exact Avb]. }
    intros h3 rank3 R3. pose proof (adv_step _ _ _ _ _ _ _ _ _ A2 (rely_adv _ _ _ _ _ _ R3)) as A3. pose proof R3 as [K3 [I3 [_ S3]]].
    apply bind_put; [exact I3|eapply adv_lt; eassumption|exact Or|reflexivity|]. intros h4 rank4 A4 _ S4.
    pose proof (adv_step _ _ _ _ _ _ _ _ _ A3 A4) as A4'. pose proof (adv_inv _ _ _ _ _ _ _ A4) as I4.
    pose proof (adv_kept _ _ _ _ _ _ _ A4') as K4.
    apply ok_catch. eapply ok_imp; [apply ok_adv; [exact I4|apply (try_ok fitc bound r l1 c0)]|].
    - exact FW.
    - exact I4.
    - exact Or.
    - eapply adv_lt; eassumption.
    - rewrite S4; [|exact Or|eapply adv_lt; eassumption|congruence]. unfold attr. rewrite S3; [exact E2|exact Or|].
      eapply adv_lt; eassumption.
    - apply (keep_clust h0 rank0 h4 rank4); assumption.
    - exact Ow1.
    - exact Hne.
    - intros l S. apply Sh1. apply (keep_share h0 rank0 h4 rank4); assumption.
    - eapply enough_adv; eassumption.
    - intros x own5 h5 rank5 [P A5]. unfold fit_post, failsafe_clustering.
      destruct (c0 xs) as [lbls|e].
      + destruct P as [-> P]. auto.
      + subst x. assert (Z : ok (put r "labels_" (VLabels (map (fun _ => 0%Z) xs))) own5 h5 rank5
          (fun x _ h' _ => x = Ok tt /\ attr h' r "labels_" = Some (VLabels (map (fun _ => 0%Z) xs)))).
        { apply ok_put; [eapply adv_inv, A5|eapply adv_lt; [exact A5|eapply adv_lt; eassumption]|eapply adv_own; eassumption|reflexivity|auto]. }
        destruct e; try reflexivity. eapply ok_imp; [exact Z|]. auto. }
  destruct Hv as [[-> ->]|[r' [-> [C Hb]]]].
  - apply ok_bind. apply bind_new with (n := 0); [exact I1|eapply tclust_fits, CO|].
    intros t h2 rank2 A2 N2 L2 Rt _. cbn [lift LearnLogic.ok].
    destruct (tclust_clust is_nan is_inf to_float classes beh _ _ _ CO _ _ N2) as [T1 [T2 T3]].
    apply G.
    + eapply adv_step; [apply rely_adv, R1|exact A2].
    + exact T2.
    + right. reflexivity.
    + pose proof (kept_length _ _ K1). lia.
    + intros l S. exfalso. eapply T3, S.
    + right. exists (mkobj c_tclust []). split; [exact N2|apply (co_tclust _ _ _ _ _ CO)].
  - rewrite lift_bind. destruct (ref_rank classes beh _ _ _ CO h rank r "clustering" r' I) as [Lr' Hr']; [tauto|apply pname_clustering|exact Av|].
    apply G.
    + apply rely_adv, R1.
    + apply (keep_clust h rank h1 rank1); assumption.
    + apply Sh. constructor; assumption.
    + intros ->. lia.
    + intros l S. apply (keep_share h rank h1 rank1) in S; try assumption. split.
      * apply Sh. eapply sh_below; eauto.
      * intros ->. destruct (shares_rank classes beh _ _ _ CO h rank r' r I S). lia.
    + left. rewrite Rk1 by exact Lr'. exact Hb.
Qed.

Lemma input_of_rows_shape (xs : list point) a : in_array (input_of_rows xs) = Ok a -> a_shape a <> [].
Proof.
  destruct xs as [|r xs]; unfold input_of_rows; cbn [in_array]; [intros [= <-]; discriminate|].
  destruct (forallb _ _); [|discriminate]. intros [= <-]. discriminate.
Qed.

Lemma nested_mapper_pure cov c (xs : list point) :
  nested_mapper is_nan is_inf to_float cov c xs =
  do v <- validate is_nan is_inf to_float (input_of_rows xs) (input_of_rows xs); pure_components (fst v) (snd v) cov c.
Proof.
  unfold nested_mapper. destruct (validate is_nan is_inf to_float (input_of_rows xs) (input_of_rows xs)) as [[X y]|e] eqn:V; cbn [bind]; [|reflexivity].
  pose proof (validate_arr _ _ _ _ _ _ _ V) as W. cbn [fst snd].
  destruct (arr_rows X W) as [[rs [d [E _]]]|[_ Sh]].
  - rewrite E. cbn [bind]. unfold pure_components. rewrite (pure_labels_rows _ _ _ _ _ E). reflexivity.
  - exfalso. apply validate_accepts in V as [a [b [zs [ys [_ [A [_ [_ [_ [_ [_ [_ [EX _]]]]]]]]]]]]].
    apply (input_of_rows_shape _ _ A). rewrite EX in Sh. exact Sh.
Qed.

Theorem fit_clust_works : forall lim, 0 < lim -> fit_works (fit_clust lim) (lim - 3).
Proof.
  induction lim as [|lim IH]; [lia|]. intros _ r c xs own h rank I C Ow Sh En.
  assert (T : behaves h r IsTrivialClustering -> ok (fit_clust (S lim) r xs) own h rank (fit_post trivial_clustering r xs)).
  { intro B. cbn [ModelLearn.fit_clust]. apply bind_behaviour with (b := IsTrivialClustering); [exact B|]. intros h1 rank1 R1.
    pose proof R1 as [K1 [I1 _]].
    apply ok_put; [exact I1| |exact Ow|reflexivity|intros h2 rank2 _ E _; split; [reflexivity|exact E]].
    pose proof (kept_length _ _ K1). pose proof (behaves_lt _ _ _ _ B). lia. }
  assert (NT : (exists b, behaves h r b /\ b <> IsTrivialClustering) -> rank r < lim - 2 /\ fit_works (fit_clust lim) (lim - 3)).
  { intros [b [B Hb]]. destruct En as [En|B']; [|exfalso; apply Hb; eapply behaves_fun; eassumption].
    assert (rank r < lim - 2) by lia. split; [assumption|]. apply IH. lia. }
  destruct C as [r B|r vb B A1 A2|r vb r' c' B A1 A2 C|r f p B P V|r vc cov nj B A1 Cv A2 A3|r vc cov r' c' nj B A1 Cv A2 A3 Cl C].
  - apply T, B.
  - destruct NT as [Hr FW]; [exists IsFailSafe; split; [exact B|discriminate]|]. cbn [ModelLearn.fit_clust].
    apply bind_behaviour with (b := IsFailSafe); [exact B|]. intros h1 rank1 R1. pose proof R1 as [K1 [I1 _]].
    pose proof (behaves_lt _ _ _ _ B) as L.
    change (failsafe_clustering (S := point) None) with (failsafe_clustering (S := point) (Some trivial_clustering)).
    apply failsafe_body with (bound := lim - 3) (v := VNone) (vb := vb).
    + exact FW.
    + exact I1.
    + eapply kept_behaves; eassumption.
    + exact Ow.
    + intros l S. apply Sh. apply (keep_share h rank h1 rank1); assumption.
    + eapply kept_attr_some; [exact K1|apply pname_clustering|exact A1].
    + eapply kept_attr_some; [exact K1|apply pname_verbose|exact A2].
    + auto.
  - destruct NT as [Hr FW]; [exists IsFailSafe; split; [exact B|discriminate]|]. cbn [ModelLearn.fit_clust].
    apply bind_behaviour with (b := IsFailSafe); [exact B|]. intros h1 rank1 R1. pose proof R1 as [K1 [I1 [Rk1 _]]].
    pose proof (behaves_lt _ _ _ _ B) as L.
    destruct (ref_rank classes beh _ _ _ CO h rank r "clustering" r' I) as [L' Hr']; [tauto|apply pname_clustering|exact A1|].
    apply failsafe_body with (bound := lim - 3) (v := VRef r') (vb := vb).
    + exact FW.
    + exact I1.
    + eapply kept_behaves; eassumption.
    + exact Ow.
    + intros l S. apply Sh. apply (keep_share h rank h1 rank1); assumption.
    + eapply kept_attr_some; [exact K1|apply pname_clustering|exact A1].
    + eapply kept_attr_some; [exact K1|apply pname_verbose|exact A2].
    + right. exists r'. split; [reflexivity|]. split; [apply (keep_clust h rank h1 rank1); assumption|].
      rewrite Rk1 by exact L'. lia.
  - destruct NT as [Hr FW]; [exists (IsClustering f); split; [exact B|discriminate]|]. cbn [ModelLearn.fit_clust].
    apply bind_behaviour with (b := IsClustering f); [exact B|]. intros h1 rank1 R1. pose proof R1 as [K1 [I1 [Rk1 _]]].
    pose proof (behaves_lt _ _ _ _ B) as L. pose proof (kept_length _ _ K1).
    apply bind_params with (p := p).
    + exact I1.
    + apply (kept_protocol classes _ _ _ K1 L), P.
    + apply (view_kept classes h rank h1 rank1); assumption.
    + lia.
    + rewrite Rk1 by exact L. lia.
    + intros ps h2 rank2 R2 Hp. rewrite lift_bind. destruct B as [o [_ E]]. pose proof (co_clust _ _ _ _ _ CO _ _ E _ _ xs Hp) as Ef.
      unfold fit_post. rewrite <- Ef. destruct (f (dget String.eqb ps) xs) as [lbls|e]; [|reflexivity].
      pose proof R2 as [K2 [I2 _]]. pose proof (kept_length _ _ K2).
      apply ok_put; [exact I2|lia|exact Ow|reflexivity|]. intros h3 rank3 _ E3 _. auto.
  - destruct NT as [Hr FW]; [exists IsMapperClustering; split; [exact B|discriminate]|]. cbn [ModelLearn.fit_clust].
    apply bind_behaviour with (b := IsMapperClustering); [exact B|]. intros h1 rank1 R1. pose proof R1 as [K1 [I1 [Rk1 _]]].
    pose proof (behaves_lt _ _ _ _ B) as L.
    eapply ok_imp; [apply (mc_fit_ok is_nan is_inf to_float classes beh c_tcover c_tclust c_failsafe CO (fit_clust lim) (lim - 3) FW)
      with (vc := vc) (cov := cov) (vk := VNone) (c := trivial_clustering) (nj := nj)|].
    + exact I1.
    + exact Ow.
    + eapply kept_behaves; eassumption.
    + eapply kept_attr_some; [exact K1|pname|exact A1].
    + apply (keep_cover h rank h1 rank1); assumption.
    + eapply kept_attr_some; [exact K1|pname|exact A2].
    + constructor.
    + eapply kept_attr_some; [exact K1|pname|exact A3].
    + intros l S. apply Sh. apply (keep_share h rank h1 rank1); assumption.
    + rewrite Rk1 by exact L. lia.
    + rewrite Rk1 by exact L. lia.
    + intros x own' h' rank' P. unfold fit_post, mc_post in *. rewrite nested_mapper_pure. exact P.
  - destruct NT as [Hr FW]; [exists IsMapperClustering; split; [exact B|discriminate]|]. cbn [ModelLearn.fit_clust].
    apply bind_behaviour with (b := IsMapperClustering); [exact B|]. intros h1 rank1 R1. pose proof R1 as [K1 [I1 [Rk1 _]]].
    pose proof (behaves_lt _ _ _ _ B) as L.
    eapply ok_imp; [apply (mc_fit_ok is_nan is_inf to_float classes beh c_tcover c_tclust c_failsafe CO (fit_clust lim) (lim - 3) FW)
      with (vc := vc) (cov := cov) (vk := VRef r') (c := c') (nj := nj)|].
    + exact I1.
    + exact Ow.
    + eapply kept_behaves; eassumption.
    + eapply kept_attr_some; [exact K1|pname|exact A1].
    + apply (keep_cover h rank h1 rank1); assumption.
    + eapply kept_attr_some; [exact K1|pname|exact A2].
    + constructor; [eapply kept_cloneable; eassumption|]. apply (keep_clust h rank h1 rank1); assumption.
    + eapply kept_attr_some; [exact K1|pname|exact A3].
    + intros l S. apply Sh. apply (keep_share h rank h1 rank1); assumption.
    + rewrite Rk1 by exact L. lia.
    + rewrite Rk1 by exact L. lia.
    + intros x own' h' rank' P. unfold fit_post, mc_post in *. rewrite nested_mapper_pure. exact P.
Qed.

(** ** MapperAlgorithm.fit *)
Section Algorithm.
Variable fitc : nat -> list point -> prog unit.
Variable bound : nat.
Hypothesis FW : fit_works fitc bound.

(** The attributes of [m] not named in [ks] are the same in both heaps. *)
Definition attrs_but (m : nat) (ks : list string) (h h' : heap) : Prop :=
  forall k, ~ In k ks -> attr h' m k = attr h m k.
Lemma attrs_but_nth m h h' : nth_error h' m = nth_error h m -> attrs_but m [] h h'.
Proof. intros E k _. unfold attr. rewrite E. reflexivity. Qed.
Lemma attrs_but_trans m ks1 ks2 ks h h1 h2 : attrs_but m ks1 h h1 -> attrs_but m ks2 h1 h2 -> incl ks1 ks -> incl ks2 ks -> attrs_but m ks h h2.
Proof. intros A1 A2 I1 I2 k N. rewrite A2, A1; auto. Qed.

Lemma default_cover_ok {B : Type} lim m vc cov (f : unit -> prog B) (own : nat -> Prop) h rank (Q : post B) :
  inv h rank -> m < length h -> own m -> attr h m "cover" = Some vc -> cover_of h vc cov -> 1 < lim -> (forall l, vc = VRef l -> rank l + 1 < lim) ->
  (forall cover own' h' rank', adv own h rank own' h' rank' -> attrs_but m ["_cover"%string] h h' ->
     attr h' m "_cover" = Some (VRef cover) -> cover_of h' (VRef cover) cov -> rank' cover + 1 < lim ->
     ok (f tt) own' h' rank' Q) ->
  ok (prg t <- new (mkobj c_tcover []);
      prg _ <- put m "_cover" (VRef t);
      prg c <- get m "cover";
      prg u <- match c with VNone => lift (Ok tt) | _ => prg l <- pclone classes lim c; put m "_cover" (VRef l) end;
      f u) own h rank Q.
Proof.
  intros I L Ow Ac Cv Hl Hr H.
  apply bind_new with (n := 0); [exact I|eapply tcover_fits, CO|]. intros t h1 rank1 A1 N1 L1 Rt S1.
  pose proof (adv_inv _ _ _ _ _ _ _ A1) as I1. pose proof (adv_lt _ _ _ _ _ _ _ _ A1 L) as Lm1.
  pose proof (attrs_but_nth m _ _ (S1 _ Ow L)) as P1.
  apply bind_put; [exact I1|exact Lm1|left; exact Ow|reflexivity|]. intros h2 rank2 A2 E2 S2.
  pose proof (adv_step _ _ _ _ _ _ _ _ _ A1 A2) as A02. pose proof (adv_inv _ _ _ _ _ _ _ A2) as I2.
  assert (P2 : attrs_but m ["_cover"%string] h h2).
  { eapply attrs_but_trans with (ks1 := []) (ks2 := ["_cover"%string]); [exact P1| |intros x []|apply incl_refl].
    intros k Nk. apply S2; [left; exact Ow|exact Lm1|]. intros [= ->]. apply Nk. left. reflexivity. }
  pose proof (adv_lt _ _ _ _ _ _ _ _ A02 L) as Lm2.
  apply bind_get with (v := vc); [exact I2|left; left; exact Ow|apply (kept_attr_some h); [eapply adv_kept, A02|pname|exact Ac]|].
  intros h3 rank3 R3. pose proof R3 as [K3 [I3 [Rk3 S3]]]. pose proof (adv_step _ _ _ _ _ _ _ _ _ A02 (rely_adv _ _ _ _ _ _ R3)) as A03.
  assert (P3 : attrs_but m ["_cover"%string] h h3).
  { eapply attrs_but_trans; [exact P2|apply attrs_but_nth, S3; [left; exact Ow|exact Lm2]|apply incl_refl|intros x []]. }
  pose proof (adv_lt _ _ _ _ _ _ _ _ A03 L) as Lm3.
  assert (T : vc = VNone -> cov = trivial_apply).
  { intros ->. inversion Cv. reflexivity. }
  assert (G : forall l, vc = VRef l -> cloneable h l).
  { intros l ->. inversion Cv; assumption. }
  assert (V : vc = VNone \/ exists l, vc = VRef l) by (inversion Cv; eauto).
  destruct V as [->|[l ->]].
  - rewrite lift_bind. rewrite (T eq_refl) in *. clear T.
    assert (Lt : t < length h1) by (apply nth_error_Some; rewrite N1; discriminate).
    pose proof (adv_lt _ _ _ _ _ _ _ _ A2 Lt) as Lt2.
    apply H with (cover := t).
    + exact A03.
    + exact P3.
    + unfold attr in *. rewrite S3; [exact E2|left; exact Ow|exact Lm2].
    + apply (keep_cover h1 rank1 h3 rank3); [exact I1|exact I3|eapply kept_trans; [eapply adv_kept, A2|exact K3]|].
      apply (tcover_cover classes beh c_tcover c_tclust c_failsafe CO), N1.
    + rewrite Rk3 by exact Lt2. rewrite (adv_rank _ _ _ _ _ _ _ _ A2 Lt), Rt. exact Hl.
  - pose proof (cloneable_lt _ _ _ (G l eq_refl)) as Ll. pose proof (adv_kept _ _ _ _ _ _ _ A03) as K03.
    apply ok_bind. apply bind_clone; [exact I3|eapply kept_cloneable; [exact K03|apply G; reflexivity]|rewrite (adv_rank _ _ _ _ _ _ _ _ A03 Ll); apply Hr; reflexivity|].
    intros c h4 rank4 Cp Lc Lc4 Rc A4 S4. pose proof (adv_inv _ _ _ _ _ _ _ A4) as I4.
    apply ok_put; [exact I4|eapply adv_lt; eassumption|left; left; exact Ow|reflexivity|]. intros h5 rank5 A5 E5 S5.
    assert (Cv4 : cover_of h4 (VRef c) cov).
    { eapply copy_cover_of; [exact Cp|]. apply (keep_cover h rank h3 rank3); assumption. }
    apply H with (cover := c).
    + eapply adv_step; [exact A03|]. eapply adv_step; eassumption.
    + eapply attrs_but_trans; [exact P3| |apply incl_refl|apply incl_refl].
      intros k Nk. rewrite S5; [|left; left; exact Ow|eapply adv_lt; eassumption|intros [= ->]; apply Nk; left; reflexivity].
      unfold attr. rewrite S4; [reflexivity|left; exact Ow|exact Lm3].
    + exact E5.
    + apply (keep_cover h4 rank4 h5 rank5); [exact I4|eapply adv_inv, A5|eapply adv_kept, A5|exact Cv4].
    + rewrite (adv_rank _ _ _ _ _ _ _ _ A5 Lc4), Rc, (adv_rank _ _ _ _ _ _ _ _ A03 Ll). apply Hr. reflexivity.
Qed.

Lemma default_clust_ok {B : Type} lim m vk c (f : unit -> prog B) (own : nat -> Prop) h rank (Q : post B) :
  inv h rank -> m < length h -> own m -> attr h m "clustering" = Some vk -> clustering_of h vk c -> rank m + 1 < lim ->
  (forall r, vk = VRef r -> rank r < rank m) -> (forall r l, vk = VRef r -> shares h r l -> own l) ->
  (forall cl (own' : nat -> Prop) h' rank', adv own h rank own' h' rank' -> attrs_but m ["_clustering"%string] h h' ->
     attr h' m "_clustering" = Some (VRef cl) -> cloneable h' cl -> clust_of h' cl c -> own' cl -> (forall l, shares h' cl l -> own' l) ->
     rank' cl <= rank m -> (forall l, shares h' cl l -> exists r, vk = VRef r /\ shares h r l) -> ok (f tt) own' h' rank' Q) ->
  ok (prg t <- new (mkobj c_tclust []);
      prg _ <- put m "_clustering" (VRef t);
      prg k <- get m "clustering";
      prg u <- match k with VNone => lift (Ok tt) | _ => prg l <- pclone classes lim k; put m "_clustering" (VRef l) end;
      f u) own h rank Q.
Proof.
  intros I L Ow Ac Cv Hl Hr Sh H.
  apply bind_new with (n := 0); [exact I|eapply tclust_fits, CO|]. intros t h1 rank1 A1 N1 L1 Rt S1.
  pose proof (adv_inv _ _ _ _ _ _ _ A1) as I1. pose proof (adv_lt _ _ _ _ _ _ _ _ A1 L) as Lm1.
  pose proof (attrs_but_nth m _ _ (S1 _ Ow L)) as P1.
  apply bind_put; [exact I1|exact Lm1|left; exact Ow|reflexivity|]. intros h2 rank2 A2 E2 S2.
  pose proof (adv_step _ _ _ _ _ _ _ _ _ A1 A2) as A02. pose proof (adv_inv _ _ _ _ _ _ _ A2) as I2.
  assert (P2 : attrs_but m ["_clustering"%string] h h2).
  { eapply attrs_but_trans with (ks1 := []) (ks2 := ["_clustering"%string]); [exact P1| |intros x []|apply incl_refl].
    intros k Nk. apply S2; [left; exact Ow|exact Lm1|]. intros [= ->]. apply Nk. left. reflexivity. }
  pose proof (adv_lt _ _ _ _ _ _ _ _ A02 L) as Lm2.
  apply bind_get with (v := vk); [exact I2|left; left; exact Ow|apply (kept_attr_some h); [eapply adv_kept, A02|pname|exact Ac]|].
  intros h3 rank3 R3. pose proof R3 as [K3 [I3 [Rk3 S3]]]. pose proof (adv_step _ _ _ _ _ _ _ _ _ A02 (rely_adv _ _ _ _ _ _ R3)) as A03.
  assert (P3 : attrs_but m ["_clustering"%string] h h3).
  { eapply attrs_but_trans; [exact P2|apply attrs_but_nth, S3; [left; exact Ow|exact Lm2]|apply incl_refl|intros x []]. }
  pose proof (adv_lt _ _ _ _ _ _ _ _ A03 L) as Lm3. pose proof (adv_kept _ _ _ _ _ _ _ A03) as K03.
  destruct Cv as [|r c Cl C].
  - rewrite lift_bind. destruct (tclust_clust is_nan is_inf to_float classes beh _ _ _ CO _ _ N1) as [T1 [T2 T3]].
    assert (Lt : t < length h1) by (apply nth_error_Some; rewrite N1; discriminate).
    pose proof (adv_lt _ _ _ _ _ _ _ _ A2 Lt) as Lt2.
    assert (K13 : kept h1 h3) by (eapply kept_trans; [eapply adv_kept, A2|exact K3]).
    assert (R0 : rank3 t = 0) by (rewrite Rk3 by exact Lt2; rewrite (adv_rank _ _ _ _ _ _ _ _ A2 Lt); exact Rt).
    apply H with (cl := t).
    + exact A03.
    + exact P3.
    + unfold attr in *. rewrite S3; [exact E2|left; exact Ow|exact Lm2].
    + eapply kept_cloneable; eassumption.
    + apply (keep_clust h1 rank1 h3 rank3); assumption.
    + right. reflexivity.
    + intros l S. exfalso. eapply T3. apply (keep_share h1 rank1 h3 rank3); eassumption.
    + lia.
    + intros l S. exfalso. eapply T3. apply (keep_share h1 rank1 h3 rank3); eassumption.
  - pose proof (cloneable_lt _ _ _ Cl) as Ll. pose proof (Hr r eq_refl) as Hrm.
    apply ok_bind. apply bind_clone; [exact I3|eapply kept_cloneable; [exact K03|exact Cl]|rewrite (adv_rank _ _ _ _ _ _ _ _ A03 Ll); lia|].
    intros cc h4 rank4 Cp Lc Lc4 Rc A4 S4. pose proof (adv_inv _ _ _ _ _ _ _ A4) as I4. pose proof (adv_kept _ _ _ _ _ _ _ A4) as K4.
    apply ok_put; [exact I4|eapply adv_lt; eassumption|left; left; exact Ow|reflexivity|]. intros h5 rank5 A5 E5 S5.
    pose proof (adv_inv _ _ _ _ _ _ _ A5) as I5. pose proof (adv_kept _ _ _ _ _ _ _ A5) as K5.
    assert (R5 : rank5 cc = rank r) by (rewrite (adv_rank _ _ _ _ _ _ _ _ A5 Lc4), Rc; apply (adv_rank _ _ _ _ _ _ _ _ A03 Ll)).
    assert (SS : forall l, shares h5 cc l -> shares h r l).
    { intros l S. apply (keep_share h rank h3 rank3); try assumption.
      apply (copy_shares classes beh c_tcover c_tclust c_failsafe CO h3 rank3 h4 rank4 r cc); try assumption.
      apply (keep_share h4 rank4 h5 rank5); assumption. }
    apply H with (cl := cc).
    + eapply adv_step; [exact A03|]. eapply adv_step; eassumption.
    + eapply attrs_but_trans; [exact P3| |apply incl_refl|apply incl_refl].
      intros k Nk. rewrite S5; [|left; left; exact Ow|eapply adv_lt; eassumption|intros [= ->]; apply Nk; left; reflexivity].
      unfold attr. rewrite S4; [reflexivity|left; exact Ow|exact Lm3].
    + exact E5.
    + eapply kept_cloneable; [exact K5|]. eapply copy_cloneable; [exact Cp|]. eapply kept_cloneable; eassumption.
    + apply (keep_clust h4 rank4 h5 rank5); [exact I4|exact I5|exact K5|].
      apply (copy_clust_of is_nan is_inf to_float classes beh c_tcover c_tclust c_failsafe CO h3 rank3 h4 rank4 r); try assumption.
      apply (keep_clust h rank h3 rank3); assumption.
    + right. reflexivity.
    + intros l S. left. left. apply (Sh r l eq_refl), SS, S.
    + lia.
    + intros l S. exists r. split; [reflexivity|apply SS, S].
Qed.

Definition ma_post (m : nat) (w : res graph) : post unit :=
  fun x _ h' _ => match w with
                  | Ok g => x = Ok tt /\ attr h' m "graph_" = Some (VGraph g)
                  | Err e => x = Err e
                  end.
Definition pure_graph (X y : point) cov c : res graph := do l <- pure_labels X y cov c; graph_of_labels l.

(** The data, the cover and the clustering that the first part of the method ends with. *)
Definition prepared (lim : nat) (m : nat) (X y : point) cov c (own : nat -> Prop) (h : heap) rank cover cl : Prop :=
  inv h rank /\ m < length h /\ own m /\ cover_of h (VRef cover) cov /\ rank cover + 1 < lim /\
  cloneable h cl /\ clust_of h cl c /\ (forall l, shares h cl l -> own l) /\ rank cl + 1 < lim /\ enough beh bound h rank cl.
Definition prep_post (lim m : nat) (w : res (point * point)) cov c (S : heap -> nat -> Prop) : post (point * point * nat * nat) :=
  fun x own h rank => match w with
    | Ok (X, y) => exists cover cl, x = Ok (X, y, cover, cl) /\ prepared lim m X y cov c own h rank cover cl /\ S h cl
    | Err e => x = Err e
    end.

Lemma ma_rest_ok lim m X' y' cover cov cl c nj (own : nat -> Prop) h rank (S : heap -> nat -> Prop) :
  inv h rank -> m < length h -> own m -> attr h m "n_jobs" = Some nj ->
  attr h m "_cover" = Some (VRef cover) -> cover_of h (VRef cover) cov -> rank cover + 1 < lim ->
  attr h m "_clustering" = Some (VRef cl) -> cloneable h cl -> clust_of h cl c -> (forall l, shares h cl l -> own l) ->
  rank cl + 1 < lim -> enough beh bound h rank cl ->
  (forall h' rank', inv h' rank' -> kept h h' -> S h' cl) ->
  ok (prg nj <- get m "n_jobs";
      prg _ <- put m "_n_jobs" nj;
      prg cv <- get m "_cover";
      prg cover <- lift (as_ref cv);
      prg kv <- get m "_clustering";
      prg cl <- lift (as_ref kv);
      lift (Ok (X', y', cover, cl))) own h rank (prep_post lim m (Ok (X', y')) cov c S).
Proof.
  intros I L Ow Aj Av Cv Rv Ak Cl C Sh Rk En HS.
  apply bind_get with (v := nj); [exact I|auto|exact Aj|]. intros h1 rank1 R1. pose proof R1 as [K1 [I1 [Rk1 S1]]].
  pose proof (kept_length _ _ K1) as Lk1.
  apply bind_put; [exact I1|lia|exact Ow|reflexivity|]. intros h2 rank2 A2 _ S2.
  pose proof (adv_step _ _ _ _ _ _ _ _ _ (rely_adv _ _ _ _ _ _ R1) A2) as A02.
  assert (P2 : forall k, k <> "_n_jobs"%string -> attr h2 m k = attr h m k).
  { intros k Nk. rewrite S2; [|exact Ow|lia|congruence]. unfold attr. rewrite S1; auto. }
  pose proof (adv_lt _ _ _ _ _ _ _ _ A02 L) as L2.
  apply bind_get with (v := VRef cover); [eapply adv_inv, A02|auto|rewrite P2 by discriminate; exact Av|].
  intros h3 rank3 R3. pose proof R3 as [K3 [I3 [_ S3]]]. pose proof (adv_step _ _ _ _ _ _ _ _ _ A02 (rely_adv _ _ _ _ _ _ R3)) as A03.
  cbn [as_ref]. rewrite lift_bind.
  apply bind_get with (v := VRef cl); [exact I3|auto| |].
  { unfold attr. rewrite S3 by assumption. fold (attr h2 m "_clustering"). rewrite P2 by discriminate. exact Ak. }
  intros h4 rank4 R4. pose proof R4 as [K4 [I4 [_ S4]]]. pose proof (adv_step _ _ _ _ _ _ _ _ _ A03 (rely_adv _ _ _ _ _ _ R4)) as A04.
  cbn [as_ref]. rewrite lift_bind. pose proof (adv_kept _ _ _ _ _ _ _ A04) as K04.
  assert (Lc : cover < length h) by (inversion Cv; eapply cloneable_lt; eassumption).
  pose proof (cloneable_lt _ _ _ Cl) as Lcl.
  exists cover, cl. split; [reflexivity|]. split; [|apply (HS h4 rank4); assumption].
  refine (conj I4 (conj _ (conj Ow (conj _ (conj _ (conj _ (conj _ (conj _ (conj _ _))))))))).
  - exact (adv_lt _ _ _ _ _ _ _ _ A04 L).
  - apply (keep_cover h rank h4 rank4); assumption.
  - rewrite (adv_rank _ _ _ _ _ _ _ _ A04 Lc). lia.
  - eapply kept_cloneable; eassumption.
  - apply (keep_clust h rank h4 rank4); assumption.
  - intros l X. apply Sh. apply (keep_share h rank h4 rank4); assumption.
  - rewrite (adv_rank _ _ _ _ _ _ _ _ A04 Lcl). exact Rk.
  - eapply enough_adv; eassumption.
Qed.

(** The last part of the method. *)
Lemma ma_graph_ok lim m X' y' cov c (own : nat -> Prop) h rank cover cl : arr_ok X' -> prepared lim m X' y' cov c own h rank cover cl ->
  ok (prg g <- p_mapper_graph classes beh fitc lim X' y' cover cl; ma_finish m X' g) own h rank (ma_post m (pure_graph X' y' cov c)).
Proof.
  intros WX [I4 [L4 [Ow [Cv [Rv [Cl [C [Sh [Rk En]]]]]]]]].
  eapply ok_seq; [exact I4|apply (graph_ok is_nan is_inf to_float classes beh c_tcover c_tclust c_failsafe CO fitc bound FW) with (cov := cov) (c := c)| |];
    try assumption; [lia| |].
  - intros e own' h' rank' P _. unfold ma_post, pure_graph. rewrite <- P. reflexivity.
  - intros g own5 h5 rank5 P A5. unfold ma_post, pure_graph. rewrite <- P.
    destruct (pure_labels X' y' cov c) as [l|e] eqn:E; [|discriminate].
    destruct (pure_labels_arr _ _ _ _ _ WX E) as [rs [d [_ Ed]]].
    apply bind_put; [eapply adv_inv, A5|eapply adv_lt; eassumption|eapply adv_own; eassumption|reflexivity|].
    intros h6 rank6 A6 E6 _. pose proof (adv_step _ _ _ _ _ _ _ _ _ A5 A6) as A06.
    eapply set_n_features_ok; [eapply adv_inv, A6|eapply adv_lt; eassumption|eapply adv_own; eassumption|exact Ed|].
    intros h8 rank8 _ S8. split; [reflexivity|]. rewrite S8 by discriminate. exact E6.
Qed.

Lemma wrapper_ok h (own : nat -> Prop) w cl c vb :
  nth_error h w = Some (mkobj c_failsafe [("clustering"%string, VRef cl); ("verbose"%string, vb)]) -> clust_of h cl c -> own cl ->
  (forall l, shares h cl l -> own l) ->
  cloneable h w /\ clust_of h w (failsafe_clustering (Some c)) /\ (forall l, shares h w l -> own l).
Proof.
  intros N C Ow Sh. destruct (co_failsafe _ _ _ _ _ CO) as [P [E B]].
  assert (A1 : attr h w "clustering" = Some (VRef cl)) by (unfold attr; rewrite N; reflexivity).
  assert (A2 : attr h w "verbose" = Some vb) by (unfold attr; rewrite N; reflexivity).
  assert (Bw : behaves h w IsFailSafe) by (exists (mkobj c_failsafe [("clustering"%string, VRef cl); ("verbose"%string, vb)]); split; assumption).
  split; [|split].
  - exists (mkobj c_failsafe [("clustering"%string, VRef cl); ("verbose"%string, vb)]), [("clustering"%string, VNone); ("verbose"%string, VBool true)].
    split; [exact N|]. cbn [o_class]. rewrite P. split; [discriminate|exact E].
  - eapply clu_failsafe; eassumption.
  - intros l S. inversion S as [r r' B1 A B2|r r' l' B1 A S']; subst; rewrite A1 in A; injection A as ->; [exact Ow|apply Sh, S'].
Qed.

Lemma ma_prepare_ok lim m X y vc cov vk c0 fs vb nj (own : nat -> Prop) h rank :
  inv h rank -> own m -> behaves h m IsMapperAlgorithm ->
  attr h m "cover" = Some vc -> cover_of h vc cov -> attr h m "clustering" = Some vk -> clustering_of h vk c0 ->
  attr h m "failsafe" = Some fs -> attr h m "verbose" = Some vb -> attr h m "n_jobs" = Some nj ->
  (forall r l, vk = VRef r -> shares h r l -> own l) ->
  S (rank m) < bound -> S (rank m) + 1 < lim ->
  ok (ma_prepare is_nan is_inf to_float classes c_tcover c_tclust c_failsafe lim m X y) own h rank
     (prep_post lim m (validate is_nan is_inf to_float X (arg_y X y)) cov (if truthy fs then failsafe_clustering (Some c0) else c0)
        (fun h' cl => truthy fs = false -> forall l, shares h' cl l -> exists r, vk = VRef r /\ shares h r l)).
Proof.
  intros I Ow Bh Ac Cv Ak Ck Af Ab Aj Sh Hb Hl. unfold ma_prepare. pose proof (behaves_lt _ _ _ _ Bh) as L.
  change (match y with None => X | Some y' => y' end) with (arg_y X y).
  rewrite lift_bind. destruct (validate is_nan is_inf to_float X (arg_y X y)) as [[X' y']|e] eqn:V; [|reflexivity]. cbn [bind fst snd].
  assert (RR : forall k l, param_name k -> attr h m k = Some (VRef l) -> l < length h /\ rank l < rank m).
  { intros k l Pk A. apply (ref_rank classes beh _ _ _ CO h rank m k l I); [tauto|exact Pk|exact A]. }
  apply (default_cover_ok lim m vc cov); [exact I|exact L|exact Ow|exact Ac|exact Cv|lia| |].
  { intros l ->. destruct (RR "cover"%string l); [pname|exact Ac|lia]. }
  intros cover own1 h1 rank1 A1 P1 Av Cv1 Rv1. pose proof (adv_inv _ _ _ _ _ _ _ A1) as I1. pose proof (adv_kept _ _ _ _ _ _ _ A1) as K1.
  pose proof (adv_lt _ _ _ _ _ _ _ _ A1 L) as L1. pose proof (adv_own _ _ _ _ _ _ _ _ A1 Ow) as Ow1.
  apply (default_clust_ok lim m vk c0); [exact I1|exact L1|exact Ow1|apply (kept_attr_some h); [exact K1|pname|exact Ak]| | | | |].
  { apply (clustering_of_kept is_nan is_inf to_float classes beh h rank h1 rank1); assumption. }
  { rewrite (adv_rank _ _ _ _ _ _ _ _ A1 L). lia. }
  { intros r ->. destruct (RR "clustering"%string r) as [Lr Hr]; [pname|exact Ak|].
    rewrite (adv_rank _ _ _ _ _ _ _ _ A1 L), (adv_rank _ _ _ _ _ _ _ _ A1 Lr). exact Hr. }
  { intros r l -> S. eapply adv_own; [exact A1|]. apply (Sh r l eq_refl).
    apply (keep_share h rank h1 rank1); try assumption. apply (RR "clustering"%string r); [pname|exact Ak]. }
  intros cl own2 h2 rank2 A2 P2 Akl Cl2 C2 Ow2 Sh2 Hr2 Or2. pose proof (adv_inv _ _ _ _ _ _ _ A2) as I2.
  rewrite (adv_rank _ _ _ _ _ _ _ _ A1 L) in Hr2.
  pose proof (adv_step _ _ _ _ _ _ _ _ _ A1 A2) as A02. pose proof (adv_kept _ _ _ _ _ _ _ A02) as K02.
  pose proof (adv_lt _ _ _ _ _ _ _ _ A02 L) as L2. pose proof (adv_own _ _ _ _ _ _ _ _ A02 Ow) as Om2.
  assert (Lc : cover < length h1) by (inversion Cv1; eapply cloneable_lt; eassumption).
  assert (Cv2 : cover_of h2 (VRef cover) cov) by (apply (keep_cover h1 rank1 h2 rank2); [assumption|assumption|eapply adv_kept, A2|assumption]).
  assert (Rv2 : rank2 cover + 1 < lim) by (rewrite (adv_rank _ _ _ _ _ _ _ _ A2 Lc); exact Rv1).
  assert (Av2 : attr h2 m "_cover" = Some (VRef cover)).
  { rewrite P2; [exact Av|intros [X0|[]]; discriminate]. }
  apply bind_get with (v := vb); [exact I2|auto|apply (kept_attr_some h); [exact K02|pname|exact Ab]|].
  intros h3 rank3 R3. pose proof R3 as [K3 [I3 [_ S3]]]. pose proof (kept_length _ _ K3) as Lk3.
  apply bind_put; [exact I3|lia|exact Om2|reflexivity|]. intros h4 rank4 A4 E4 S4.
  pose proof (adv_step _ _ _ _ _ _ _ _ _ (rely_adv _ _ _ _ _ _ R3) A4) as A24.
  assert (P4 : forall k, k <> "_verbose"%string -> attr h4 m k = attr h2 m k).
  { intros k Nk. rewrite S4; [|exact Om2|lia|congruence]. unfold attr. rewrite S3; auto. }
  pose proof (adv_inv _ _ _ _ _ _ _ A4) as I4. pose proof (adv_step _ _ _ _ _ _ _ _ _ A02 A24) as A04.
  pose proof (adv_lt _ _ _ _ _ _ _ _ A04 L) as L4.
  apply bind_get with (v := fs); [exact I4|auto|apply (kept_attr_some h); [eapply adv_kept, A04|pname|exact Af]|].
  intros h5 rank5 R5. pose proof R5 as [K5 [I5 [_ S5]]]. pose proof (kept_length _ _ K5) as Lk5.
  apply bind_put; [exact I5|lia|exact Om2|reflexivity|]. intros h6 rank6 A6 E6 S6.
  pose proof (adv_step _ _ _ _ _ _ _ _ _ A24 (adv_step _ _ _ _ _ _ _ _ _ (rely_adv _ _ _ _ _ _ R5) A6)) as A26.
  pose proof (adv_step _ _ _ _ _ _ _ _ _ A02 A26) as A06.
  assert (P6 : forall k, k <> "_failsafe"%string -> attr h6 m k = attr h4 m k).
  { intros k Nk. rewrite S6; [|exact Om2|lia|congruence]. unfold attr. rewrite S5; auto. }
  pose proof (adv_inv _ _ _ _ _ _ _ A6) as I6. pose proof (adv_lt _ _ _ _ _ _ _ _ A06 L) as L6.
  apply bind_get with (v := fs); [exact I6|auto|exact E6|].
  intros h7 rank7 R7. pose proof R7 as [K7 [I7 [_ S7]]]. pose proof (adv_step _ _ _ _ _ _ _ _ _ A26 (rely_adv _ _ _ _ _ _ R7)) as A27.
  pose proof (adv_step _ _ _ _ _ _ _ _ _ A02 A27) as A07.
  assert (P7 : forall k, k <> "_failsafe"%string -> attr h7 m k = attr h4 m k).
  { intros k Nk. unfold attr at 1. rewrite S7; auto. apply P6, Nk. }
  pose proof (adv_lt _ _ _ _ _ _ _ _ A07 L) as L7. pose proof (adv_kept _ _ _ _ _ _ _ A27) as K27.
  pose proof (cloneable_lt _ _ _ Cl2) as Lcl. pose proof (adv_lt _ _ _ _ _ _ _ _ A2 Lc) as Lc2.
  assert (Cv7 : cover_of h7 (VRef cover) cov) by (apply (keep_cover h2 rank2 h7 rank7); assumption).
  assert (Cl7 : cloneable h7 cl) by (eapply kept_cloneable; eassumption).
  assert (C7 : clust_of h7 cl c0) by (apply (keep_clust h2 rank2 h7 rank7); assumption).
  assert (Sh7 : forall l, shares h7 cl l -> own2 l) by (intros l S; apply Sh2; apply (keep_share h2 rank2 h7 rank7); assumption).
  assert (Rv7 : rank7 cover + 1 < lim) by (rewrite (adv_rank _ _ _ _ _ _ _ _ A27 Lc2); exact Rv2).
  assert (Rk7 : rank7 cl <= rank m) by (rewrite (adv_rank _ _ _ _ _ _ _ _ A27 Lcl); exact Hr2).
  assert (Av7 : attr h7 m "_cover" = Some (VRef cover)) by (rewrite P7, P4 by discriminate; exact Av2).
  assert (Ak7 : attr h7 m "_clustering" = Some (VRef cl)) by (rewrite P7, P4 by discriminate; exact Akl).
  assert (Aj7 : attr h7 m "n_jobs" = Some nj) by (apply (kept_attr_some h); [eapply adv_kept, A07|pname|exact Aj]).
  destruct (truthy fs).
  - apply ok_bind.
    apply bind_get with (v := VRef cl); [exact I7|auto|exact Ak7|]. intros h8 rank8 R8. pose proof R8 as [K8 [I8 [_ S8]]].
    pose proof (adv_step _ _ _ _ _ _ _ _ _ A07 (rely_adv _ _ _ _ _ _ R8)) as A08.
    pose proof (adv_lt _ _ _ _ _ _ _ _ A08 L) as L8.
    apply bind_get with (v := vb); [exact I8|auto| |].
    { unfold attr. rewrite S8 by assumption. fold (attr h7 m "_verbose"). rewrite P7 by discriminate. exact E4. }
    intros h9 rank9 R9. pose proof R9 as [K9 [I9 [_ S9]]].
    pose proof (rely_adv _ _ _ _ _ _ (rely_trans _ _ _ _ _ _ _ _ R8 R9)) as A79. pose proof (adv_step _ _ _ _ _ _ _ _ _ A07 A79) as A09.
    pose proof (cloneable_lt _ _ _ Cl7) as Lcl7. pose proof (adv_kept _ _ _ _ _ _ _ A79) as K79.
    assert (Lcv7 : cover < length h7) by (inversion Cv7; eapply cloneable_lt; eassumption).
    apply bind_new with (n := S (rank m)); [exact I9| |].
    { apply (failsafe_fits classes beh c_tcover c_tclust c_failsafe CO).
      - eapply adv_lt; [exact A79|exact Lcl7].
      - rewrite (adv_rank _ _ _ _ _ _ _ _ A79 Lcl7). lia.
      - intros q ->. destruct (RR "verbose"%string q) as [Lq Hq]; [pname|exact Ab|].
        split; [eapply adv_lt; [exact A09|exact Lq]|]. rewrite (adv_rank _ _ _ _ _ _ _ _ A09 Lq). lia. }
    intros w h10 rank10 A10 N10 L10 R10 S10.
    pose proof (adv_step _ _ _ _ _ _ _ _ _ A09 A10) as A010. pose proof (adv_inv _ _ _ _ _ _ _ A10) as I10.
    pose proof (adv_step _ _ _ _ _ _ _ _ _ A79 A10) as A710. pose proof (adv_kept _ _ _ _ _ _ _ A710) as K710.
    pose proof (adv_lt _ _ _ _ _ _ _ _ A010 L) as Lm10.
    pose proof (adv_lt _ _ _ _ _ _ _ _ A09 L) as L9.
    destruct (wrapper_ok h10 own2 w cl c0 vb N10) as [W1 [W2 W3]].
    { apply (keep_clust h7 rank7 h10 rank10); assumption. }
    { exact Ow2. }
    { intros l S. apply Sh7. apply (keep_share h7 rank7 h10 rank10); assumption. }
    apply ok_put; [exact I10|exact Lm10|left; exact Om2|reflexivity|]. intros h11 rank11 A11 E11 S11.
    pose proof (adv_step _ _ _ _ _ _ _ _ _ A710 A11) as A711. pose proof (adv_inv _ _ _ _ _ _ _ A11) as I11.
    pose proof (adv_kept _ _ _ _ _ _ _ A11) as K11. pose proof (adv_kept _ _ _ _ _ _ _ A711) as K711.
    pose proof (cloneable_lt _ _ _ W1) as Lw.
    assert (Rw : rank11 w = S (rank m)) by (rewrite (adv_rank _ _ _ _ _ _ _ _ A11 Lw); exact R10).
    apply (ma_rest_ok lim m X' y' cover cov w (failsafe_clustering (Some c0)) nj).
    + exact I11.
    + eapply adv_lt; [exact A11|exact Lm10].
    + left. exact Om2.
    + apply (kept_attr_some h7); [exact K711|pname|exact Aj7].
    + rewrite S11; [|left; exact Om2|exact Lm10|congruence]. unfold attr. rewrite S10 by assumption.
      rewrite S9 by assumption. rewrite S8 by assumption. exact Av7.
    + apply (keep_cover h7 rank7 h11 rank11); assumption.
    + rewrite (adv_rank _ _ _ _ _ _ _ _ A711 Lcv7). exact Rv7.
    + exact E11.
    + eapply kept_cloneable; [exact K11|exact W1].
    + apply (keep_clust h10 rank10 h11 rank11); assumption.
    + intros l S. left. apply W3. apply (keep_share h10 rank10 h11 rank11); assumption.
    + lia.
    + left. lia.
    + intros h' rank' _ _ T. discriminate T.
  - rewrite lift_bind. apply (ma_rest_ok lim m X' y' cover cov cl c0 nj); try assumption.
    + lia.
    + left. lia.
    + intros h' rank' I' K' _ l S. destruct (Or2 l) as [r [-> S']].
      { apply (keep_share h2 rank2 h' rank'); try assumption. eapply kept_trans; [exact K27|exact K']. }
      exists r. split; [reflexivity|]. destruct (RR "clustering"%string r) as [Lr _]; [pname|exact Ak|].
      apply (keep_share h rank h1 rank1); assumption.
Qed.

Lemma ma_fit_ok lim m X y vc cov vk c0 fs vb nj (own : nat -> Prop) h rank :
  inv h rank -> own m -> behaves h m IsMapperAlgorithm ->
  attr h m "cover" = Some vc -> cover_of h vc cov -> attr h m "clustering" = Some vk -> clustering_of h vk c0 ->
  attr h m "failsafe" = Some fs -> attr h m "verbose" = Some vb -> attr h m "n_jobs" = Some nj ->
  (forall r l, vk = VRef r -> shares h r l -> own l) ->
  S (rank m) < bound -> S (rank m) + 1 < lim ->
  ok (ma_fit is_nan is_inf to_float classes beh c_tcover c_tclust c_failsafe fitc lim m X y) own h rank
     (ma_post m (do v <- validate is_nan is_inf to_float X (arg_y X y);
                 pure_graph (fst v) (snd v) cov (if truthy fs then failsafe_clustering (Some c0) else c0))).
Proof.
  intros I Ow Bh Ac Cv Ak Ck Af Ab Aj Sh Hb Hl. unfold ma_fit.
  pose proof (ma_prepare_ok lim m X y vc cov vk c0 fs vb nj own h rank I Ow Bh Ac Cv Ak Ck Af Ab Aj Sh Hb Hl) as P.
  eapply ok_seq; [exact I|exact P| |]; clear P.
  - intros e own' h' rank' P _. unfold prep_post in P. destruct (validate is_nan is_inf to_float X (arg_y X y)) as [[X' y']|e'];
      [destruct P as [? [? [P _]]]; discriminate|]. injection P as ->. reflexivity.
  - intros v own' h' rank' P _. unfold prep_post in P. destruct (validate is_nan is_inf to_float X (arg_y X y)) as [[X' y']|e'] eqn:V; [|discriminate].
    destruct P as [cover [cl [E [P _]]]]. injection E as ->. cbn [bind fst snd].
    apply ma_graph_ok; [exact (validate_arr _ _ _ _ _ _ _ V)|exact P].
Qed.
End Algorithm.
End Fit.
