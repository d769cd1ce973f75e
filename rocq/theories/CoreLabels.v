(** Proofs about [mapper_labels]. *)
From Verif Require Import Base BaseFacts ModelCore SpecCore.
Open Scope Z_scope.

Lemma Forall2_impl {A B} (P Q : A -> B -> Prop) l l' :
  (forall a b, P a b -> Q a b) -> Forall2 P l l' -> Forall2 Q l l'.
Proof. intros H HF. induction HF; constructor; auto. Qed.

Lemma map_res_ok {A B} (f : A -> res B) (l : list A) ys :
  map_res f l = Ok ys <-> Forall2 (fun x y => f x = Ok y) l ys.
Proof.
  revert ys; induction l as [|x l IH]; intro ys; cbn [map_res].
  - split; intro H; [injection H as <-; constructor | inversion H; reflexivity].
  - split; intro H.
    + apply bind_ok in H. destruct H as [y [H1 H]]. apply bind_ok in H. destruct H as [ys' [H2 H]].
      injection H as <-. constructor; auto. apply IH, H2.
    + inversion H as [|a b la lb H1 H2]; subst. rewrite H1. cbn [bind].
      apply IH in H2. rewrite H2. reflexivity.
Qed.

Lemma for_each_app {A S} (body : A -> S -> res S) l1 l2 st :
  for_each (l1 ++ l2) body st = do st1 <- for_each l1 body st; for_each l2 body st1.
Proof.
  revert st; induction l1 as [|x l1 IH]; intro st; cbn [for_each app bind]; [reflexivity|].
  destruct (body x st) as [s1|e]; cbn [bind]; [apply IH|reflexivity].
Qed.

(** ** Closed form of the label computation *)
Definition sel (m : Z) (i : nat) (ps : list (nat * Z)) : list Z :=
  map (fun p => m + snd p) (filter (fun p => Nat.eqb (fst p) i && (0 <=? snd p)) ps).

Definition maxl (mx : Z) (ps : list (nat * Z)) : Z :=
  fold_left (fun a p => Z.max a (snd p)) ps mx.

Lemma sel_app m i p q : sel m i (p ++ q) = sel m i p ++ sel m i q.
Proof. unfold sel. rewrite filter_app, map_app. reflexivity. Qed.

Lemma label_loop m ps :
  forall itm mx, (forall p, In p ps -> (fst p < length itm)%nat) ->
  exists itm', for_each ps (label_step m) (itm, mx) = Ok (itm', maxl mx ps) /\
    length itm' = length itm /\
    forall i, nth_error itm' i = option_map (fun old => old ++ sel m i ps) (nth_error itm i).
Proof.
  induction ps as [|[j l] ps IH]; intros itm mx Hin; cbn [for_each].
  - exists itm. split; [reflexivity|]. split; [reflexivity|].
    intro i. destruct (nth_error itm i); simpl; [rewrite app_nil_r|]; reflexivity.
  - assert (Hj : (j < length itm)%nat) by (apply (Hin (j, l)); left; reflexivity).
    assert (Hmx : (if mx <? l then l else mx) = Z.max mx l) by (destruct (Z.ltb_spec mx l); lia).
    unfold label_step at 1. cbn [maxl fold_left]. rewrite Hmx.
    destruct (0 <=? l) eqn:Hl.
    + destruct (rd_lt itm j Hj) as [old [Ro Eo]]. rewrite Ro. cbn [bind].
      destruct (wr_ok itm j (old ++ [m + l]) Hj) as [itm1 [W [L1 N1]]]. rewrite W. cbn [bind].
      destruct (IH itm1 (Z.max mx l)) as [itm' [E [L N]]].
      { intros p Hp. rewrite L1. apply Hin. right; exact Hp. }
      exists itm'. split; [exact E|]. split; [congruence|]. intro i. rewrite N, N1.
      unfold sel. cbn [filter fst snd]. rewrite (Nat.eqb_sym j i).
      destruct (Nat.eqb_spec i j) as [->|Hne]; cbn [andb].
      * rewrite Hl, Eo, ?Nat.eqb_refl. cbn [option_map map snd andb]. rewrite <- app_assoc. reflexivity.
      * reflexivity.
    + cbn [bind]. destruct (IH itm (Z.max mx l)) as [itm' [E [L N]]].
      { intros p Hp. apply Hin. right; exact Hp. }
      exists itm'. split; [exact E|]. split; [exact L|]. intro i. rewrite N.
      unfold sel. cbn [filter fst snd]. rewrite Hl, Bool.andb_false_r. reflexivity.
Qed.

Fixpoint all_sel (off : Z) (i : nat) (parts : list (list nat * list Z)) : list Z :=
  match parts with
  | [] => []
  | (ids, lbls) :: ps =>
      sel off i (combine ids lbls) ++ all_sel (off + (maxl 0 (combine ids lbls) + 1)) i ps
  end.

(** Offset of the [k]-th set. *)
Fixpoint off_at (parts : list (list nat * list Z)) (k : nat) : Z :=
  match k, parts with
  | Datatypes.S k', (ids, lbls) :: ps => maxl 0 (combine ids lbls) + 1 + off_at ps k'
  | _, _ => 0
  end.

Lemma set_loop parts :
  forall itm off, (forall ids lbls j, In (ids, lbls) parts -> In j ids -> (j < length itm)%nat) ->
  exists itm' off', for_each parts set_step (itm, off) = Ok (itm', off') /\
    length itm' = length itm /\
    forall i, nth_error itm' i = option_map (fun old => old ++ all_sel off i parts) (nth_error itm i).
Proof.
  induction parts as [|[ids lbls] ps IH]; intros itm off Hin; cbn [for_each].
  - exists itm, off. split; [reflexivity|]. split; [reflexivity|].
    intro i. destruct (nth_error itm i); simpl; [rewrite app_nil_r|]; reflexivity.
  - unfold set_step at 1.
    destruct (label_loop off (combine ids lbls) itm 0) as [itm1 [E1 [L1 N1]]].
    { intros [j l] Hp. apply (Hin ids lbls); [left; reflexivity|]. apply in_combine_l in Hp. exact Hp. }
    rewrite E1. cbn [bind].
    destruct (IH itm1 (off + (maxl 0 (combine ids lbls) + 1))) as [itm' [off' [E [L N]]]].
    { intros ids' lbls' j H1 H2. rewrite L1. apply (Hin ids' lbls'); [right; exact H1|exact H2]. }
    exists itm', off'. split; [exact E|]. split; [congruence|].
    intro i. rewrite N, N1. destruct (nth_error itm i); simpl; [rewrite <- app_assoc|]; reflexivity.
Qed.

(** Successful runs of the jobs. *)
Lemma run_jobs_ok {S} (X : list S) clust opens after :
  forall k parts, run_jobs X clust k opens after = Ok parts ->
  after = None /\ length parts = length opens /\
  forall m ids lbls, nth_error parts m = Some (ids, lbls) ->
    nth_error opens m = Some ids /\
    exists xs, Forall2 (fun j x => nth_error X j = Some x) ids xs /\ clust (k + m)%nat xs = Ok lbls.
Proof.
  induction opens as [|ids opens IH]; intros k parts H; cbn [run_jobs] in H.
  - destruct after; [discriminate|]. injection H as <-. split; [reflexivity|]. split; [reflexivity|].
    intros [|m] ids lbls Hm; discriminate.
  - apply bind_ok in H. destruct H as [[ids0 lbls0] [H1 H]].
    apply bind_ok in H. destruct H as [ps [H2 H]]. injection H as <-.
    destruct (IH _ _ H2) as [Ha [Hl Hn]]. split; [exact Ha|]. split; [simpl; congruence|].
    unfold run_clustering in H1. apply bind_ok in H1. destruct H1 as [xs [Hx H1]].
    apply bind_ok in H1. destruct H1 as [l0 [Hc H1]]. injection H1 as <- <-.
    intros [|m] ids' lbls' Hm.
    + simpl in Hm. injection Hm as <- <-. split; [reflexivity|]. exists xs. split.
      * apply map_res_ok in Hx. eapply Forall2_impl; [|exact Hx]. intros a b Hab. apply rd_ok. exact Hab.
      * rewrite Nat.add_0_r. exact Hc.
    + simpl in Hm. destruct (Hn m ids' lbls' Hm) as [A [xs' [B C]]]. split; [exact A|].
      exists xs'. split; [exact B|]. replace (k + Datatypes.S m)%nat with (Datatypes.S k + m)%nat by lia. exact C.
Qed.

Lemma run_jobs_total {S} (X : list S) clust opens :
  forall k,
  (forall m ids, nth_error opens m = Some ids ->
     exists xs lbls, Forall2 (fun j x => nth_error X j = Some x) ids xs /\ clust (k + m)%nat xs = Ok lbls) ->
  exists parts, run_jobs X clust k opens None = Ok parts.
Proof.
  induction opens as [|ids opens IH]; intros k H; cbn [run_jobs]; [eauto|].
  destruct (H 0%nat ids eq_refl) as [xs [lbls [H1 H2]]]. rewrite Nat.add_0_r in H2.
  unfold run_clustering.
  assert (E : map_res (rd X) ids = Ok xs).
  { apply map_res_ok. eapply Forall2_impl; [|exact H1]. intros a b Hab. apply rd_ok. exact Hab. }
  rewrite E. cbn [bind]. rewrite H2. cbn [bind].
  destruct (IH (Datatypes.S k)) as [ps Hps].
  { intros m ids' Hm. destruct (H (Datatypes.S m) ids' Hm) as [xs' [lbls' [A B]]].
    exists xs', lbls'. split; [exact A|]. replace (Datatypes.S k + m)%nat with (k + Datatypes.S m)%nat by lia. exact B. }
  rewrite Hps. cbn [bind]. eauto.
Qed.

Lemma Forall2_det {A B} (R : A -> B -> Prop) l l1 l2 :
  (forall a b c, R a b -> R a c -> b = c) -> Forall2 R l l1 -> Forall2 R l l2 -> l1 = l2.
Proof.
  intros HR H1. revert l2. induction H1 as [|a b l l1 Hab H IH]; intros l2 H2; inversion H2; subst; auto.
  f_equal; eauto.
Qed.

Lemma nth_error_repeat {A} (x : A) n i : (i < n)%nat -> nth_error (repeat x n) i = Some x.
Proof.
  revert i; induction n as [|n IH]; intros [|i] H; simpl; auto; try lia. apply IH. lia.
Qed.

Section L.
Context {S : Type}.
Variables (X : list S) (opens : gen (list nat)) (clust : clustering S).

(** Successful call in closed form. *)
Lemma mapper_labels_closed out :
  mapper_labels X opens clust = Ok out ->
  stops opens = None /\
  exists parts,
    (forall k ids lbls, nth_error parts k = Some (ids, lbls) <-> local_labels X (yields opens) clust k ids lbls) /\
    length parts = length (yields opens) /\
    length out = length X /\
    forall i, (i < length X)%nat -> nth_error out i = Some (all_sel 0 i parts).
Proof.
  intro H. unfold mapper_labels in H. apply bind_ok in H. destruct H as [parts [H1 H2]].
  destruct (run_jobs_ok _ _ _ _ _ _ H1) as [Hs [Hl Hn]]. split; [exact Hs|]. exists parts.
  assert (Hrange : forall ids lbls j, In (ids, lbls) parts -> In j ids -> (j < length X)%nat).
  { intros ids lbls j Hp Hj. apply In_nth_error in Hp. destruct Hp as [k Hk].
    destruct (Hn k ids lbls Hk) as [_ [xs [Hf _]]]. clear - Hf Hj.
    induction Hf as [|a x ids xs Ha Hf IH]; [contradiction|]. destruct Hj as [<-|Hj]; [|auto].
    eapply nth_error_lt; eauto. }
  unfold assign_labels in H2.
  destruct (set_loop parts (repeat [] (length X)) 0) as [itm' [off' [E [L N]]]].
  { intros ids lbls j A B. rewrite repeat_length. eapply Hrange; eauto. }
  rewrite E in H2. cbn [bind fst] in H2. injection H2 as <-.
  rewrite repeat_length in L. split; [|split; [exact Hl|split; [exact L|]]].
  - intros k ids lbls. split.
    + intro Hk. destruct (Hn k ids lbls Hk) as [A [xs [B C]]]. split; [exact A|]. exists xs. auto.
    + intros [A [xs [B C]]].
      assert (Hk : (k < length parts)%nat) by (rewrite Hl; eapply nth_error_lt; eauto).
      destruct (nth_error_ex parts k Hk) as [[ids' lbls'] Hp]. rewrite Hp.
      destruct (Hn k ids' lbls' Hp) as [A' [xs' [B' C']]].
      rewrite A in A'. injection A' as <-.
      assert (xs = xs') by (eapply (Forall2_det _ ids xs xs'); eauto; simpl; congruence). subst xs'.
      simpl in C'. congruence.
  - intros i Hi. rewrite N, nth_error_repeat by exact Hi. reflexivity.
Qed.

Lemma mapper_labels_total :
  stops opens = None ->
  (forall k ids, nth_error (yields opens) k = Some ids -> exists lbls, local_labels X (yields opens) clust k ids lbls) ->
  exists out, mapper_labels X opens clust = Ok out.
Proof.
  intros Hs H. unfold mapper_labels. rewrite Hs.
  destruct (run_jobs_total X clust (yields opens) 0) as [parts E].
  { intros m ids Hm. destruct (H m ids Hm) as [lbls [_ [xs [A B]]]]. eauto. }
  rewrite E. cbn [bind]. destruct (run_jobs_ok _ _ _ _ _ _ E) as [_ [Hl Hn]].
  unfold assign_labels.
  destruct (set_loop parts (repeat [] (length X)) 0) as [itm' [off' [E2 [L N]]]].
  { intros ids lbls j Hp Hj. rewrite repeat_length. apply In_nth_error in Hp. destruct Hp as [k Hk].
    destruct (Hn k ids lbls Hk) as [_ [xs [Hf _]]]. clear - Hf Hj.
    induction Hf as [|a x ids xs Ha Hf IH]; [contradiction|]. destruct Hj as [<-|Hj]; [|auto].
    eapply nth_error_lt; eauto. }
  rewrite E2. cbn [bind]. eauto.
Qed.
End L.

(** ** Facts about the closed form *)
Lemma maxl_ge mx ps : mx <= maxl mx ps /\ forall p, In p ps -> snd p <= maxl mx ps.
Proof.
  unfold maxl. revert mx; induction ps as [|p ps IH]; intro mx; simpl; [split; [lia|tauto]|].
  destruct (IH (Z.max mx (snd p))) as [A B]. split; [lia|]. intros q [<-|Hq]; [lia|auto].
Qed.

Lemma in_sel m i ps z : In z (sel m i ps) <-> exists l, In (i, l) ps /\ 0 <= l /\ z = m + l.
Proof.
  unfold sel. rewrite in_map_iff. split.
  - intros [[j l] [H1 H2]]. apply filter_In in H2. simpl in *. destruct H2 as [H2 H3].
    apply Bool.andb_true_iff in H3. destruct H3 as [H3 H4]. apply Nat.eqb_eq in H3. apply Z.leb_le in H4.
    subst. eauto.
  - intros [l [H1 [H2 ->]]]. exists (i, l). split; [reflexivity|]. apply filter_In. split; [exact H1|].
    simpl. rewrite Nat.eqb_refl. apply Z.leb_le in H2. rewrite H2. reflexivity.
Qed.

Lemma in_combine_nth {A B} (l : list A) (l' : list B) x y :
  In (x, y) (combine l l') <-> exists j, nth_error l j = Some x /\ nth_error l' j = Some y.
Proof.
  revert l'; induction l as [|a l IH]; intros [|b l']; simpl.
  - split; [tauto|]. intros [[|j] [H _]]; discriminate.
  - split; [tauto|]. intros [[|j] [H _]]; discriminate.
  - split; [tauto|]. intros [[|j] [_ H]]; discriminate.
  - rewrite IH. split.
    + intros [H|[j H]]; [injection H as -> ->; exists 0%nat; auto|exists (Datatypes.S j); auto].
    + intros [[|j] [H1 H2]]; simpl in *; [left; congruence|right; eauto].
Qed.

Lemma in_all_sel parts : forall off i z,
  In z (all_sel off i parts) <->
  exists k ids lbls j l, nth_error parts k = Some (ids, lbls) /\ nth_error ids j = Some i /\
    nth_error lbls j = Some l /\ 0 <= l /\ z = off + off_at parts k + l.
Proof.
  induction parts as [|[ids lbls] ps IH]; intros off i z; cbn [all_sel].
  - split; [simpl; tauto|]. intros [[|k] [ids [lbls [j [l [H _]]]]]]; discriminate.
  - rewrite in_app_iff, in_sel, IH. split.
    + intros [[l [H1 [H2 ->]]]|[k [ids' [lbls' [j [l [H1 [H2 [H3 [H4 ->]]]]]]]]]].
      * apply in_combine_nth in H1. destruct H1 as [j [A B]].
        exists 0%nat, ids, lbls, j, l. cbn [off_at nth_error]. repeat split; auto. lia.
      * exists (Datatypes.S k), ids', lbls', j, l. cbn [off_at nth_error]. repeat split; auto. lia.
    + intros [[|k] [ids' [lbls' [j [l [H1 [H2 [H3 [H4 ->]]]]]]]]]; cbn [off_at nth_error] in *.
      * injection H1 as <- <-. left. exists l. split; [apply in_combine_nth; eauto|]. split; [exact H4|lia].
      * right. exists k, ids', lbls', j, l. repeat split; auto. lia.
Qed.

Lemma off_at_nonneg parts k : 0 <= off_at parts k.
Proof.
  revert k; induction parts as [|[ids lbls] ps IH]; intros [|k]; cbn [off_at]; try lia.
  specialize (IH k). assert (A := proj1 (maxl_ge 0 (combine ids lbls))). lia.
Qed.

Lemma off_at_lt parts : forall k k' ids lbls j l i,
  (k < k')%nat -> (k' < length parts)%nat ->
  nth_error parts k = Some (ids, lbls) -> nth_error ids j = Some i -> nth_error lbls j = Some l ->
  off_at parts k + l < off_at parts k'.
Proof.
  induction parts as [|[ids0 lbls0] ps IH]; intros k k' ids lbls j l i Hk Hk' Hp Hi Hl; [simpl in Hk'; lia|].
  destruct k' as [|k']; [lia|]. cbn [off_at]. destruct k as [|k].
  - simpl in Hp. injection Hp as <- <-. simpl off_at.
    assert (A := proj2 (maxl_ge 0 (combine ids0 lbls0)) (i, l)).
    assert (B : In (i, l) (combine ids0 lbls0)) by (apply in_combine_nth; eauto).
    specialize (A B). simpl in A. assert (C := off_at_nonneg ps k'). lia.
  - simpl in Hp, Hk'. specialize (IH k k' ids lbls j l i ltac:(lia) ltac:(lia) Hp Hi Hl). lia.
Qed.

Lemma sel_nodup_le1 m i ids lbls : NoDup ids -> (length (sel m i (combine ids lbls)) <= 1)%nat.
Proof.
  intro Hn. unfold sel. rewrite map_length.
  revert lbls; induction Hn as [|a ids Ha Hn IH]; intros [|b lbls]; simpl; try lia.
  destruct (Nat.eqb_spec a i) as [->|Hne]; cbn [andb].
  - destruct (0 <=? b); cbn [length].
    + assert (E : filter (fun p => Nat.eqb (fst p) i && (0 <=? snd p)) (combine ids lbls) = []).
      { destruct (filter _ (combine ids lbls)) as [|[c d] t] eqn:F; [reflexivity|].
        assert (Hin : In (c, d) (filter (fun p => Nat.eqb (fst p) i && (0 <=? snd p)) (combine ids lbls))) by (rewrite F; left; reflexivity).
        apply filter_In in Hin. destruct Hin as [H1 H2]. simpl in H2. apply Bool.andb_true_iff in H2.
        destruct H2 as [H2 _]. apply Nat.eqb_eq in H2. subst c. apply in_combine_l in H1. contradiction. }
      rewrite E. simpl. lia.
    + apply IH.
  - apply IH.
Qed.

Lemma StronglySorted_app (l1 l2 : list Z) :
  StronglySorted Z.lt l1 -> StronglySorted Z.lt l2 ->
  (forall a b, In a l1 -> In b l2 -> a < b) -> StronglySorted Z.lt (l1 ++ l2).
Proof.
  induction l1 as [|x l1 IH]; intros H1 H2 H; simpl; auto.
  inversion H1 as [|x' l' Hs Hf]; subst. constructor.
  - apply IH; auto. intros a b Ha Hb. apply H; [right; exact Ha|exact Hb].
  - apply Forall_app. split; [exact Hf|]. apply Forall_forall. intros b Hb. apply H; [left; reflexivity|exact Hb].
Qed.

Lemma all_sel_sorted parts : forall off i,
  (forall ids lbls, In (ids, lbls) parts -> NoDup ids) ->
  StronglySorted Z.lt (all_sel off i parts).
Proof.
  induction parts as [|[ids lbls] ps IH]; intros off i Hn; cbn [all_sel]; [constructor|].
  apply StronglySorted_app.
  - assert (L := sel_nodup_le1 off i ids lbls (Hn ids lbls (or_introl eq_refl))).
    destruct (sel off i (combine ids lbls)) as [|a [|b t]]; simpl in L; [constructor| |lia].
    constructor; constructor.
  - apply IH. intros ids' lbls' H. apply (Hn ids' lbls'). right; exact H.
  - intros a b Ha Hb. apply in_sel in Ha. destruct Ha as [l [H1 [H2 ->]]].
    apply in_all_sel in Hb. destruct Hb as [k [ids' [lbls' [j [l' [_ [_ [_ [H3 ->]]]]]]]]].
    assert (A := proj2 (maxl_ge 0 (combine ids lbls)) (i, l) H1). simpl in A.
    assert (C := off_at_nonneg ps k). lia.
Qed.

(** ** Public label statements *)
Section LP.
Context {S : Type}.
Variables (X : list S) (opens : gen (list nat)) (clust : clustering S).

Definition name_of (parts : list (list nat * list Z)) (k : nat) (l : Z) : Z := off_at parts k + l.

Lemma name_of_names parts :
  (forall k ids lbls, nth_error parts k = Some (ids, lbls) <-> local_labels X (yields opens) clust k ids lbls) ->
  names_clusters X (yields opens) clust (name_of parts).
Proof.
  intro Hp. split.
  - intros k l [i [Hl _]]. unfold name_of. assert (A := off_at_nonneg parts k). lia.
  - intros k l k' l' [i [Hl [ids [lbls [j [HL [Hi Hj]]]]]]] [i' [Hl' [ids' [lbls' [j' [HL' [Hi' Hj']]]]]]] E.
    unfold name_of in E. apply Hp in HL. apply Hp in HL'.
    assert (A := nth_error_lt _ _ _ HL). assert (B := nth_error_lt _ _ _ HL').
    destruct (Nat.lt_trichotomy k k') as [C|[C|C]].
    + assert (D := off_at_lt parts k k' ids lbls j l i C B HL Hi Hj). lia.
    + subst k'. split; [reflexivity|lia].
    + assert (D := off_at_lt parts k' k ids' lbls' j' l' i' C A HL' Hi' Hj'). lia.
Qed.

Lemma in_all_sel_cluster parts i z :
  (forall k ids lbls, nth_error parts k = Some (ids, lbls) <-> local_labels X (yields opens) clust k ids lbls) ->
  In z (all_sel 0 i parts) <-> exists k l, in_cluster X (yields opens) clust k l i /\ z = name_of parts k l.
Proof.
  intro Hp. rewrite in_all_sel. unfold name_of. split.
  - intros [k [ids [lbls [j [l [H1 [H2 [H3 [H4 ->]]]]]]]]]. exists k, l. split; [|lia].
    split; [exact H4|]. exists ids, lbls, j. split; [apply Hp, H1|]. auto.
  - intros [k [l [[H4 [ids [lbls [j [H1 [H2 H3]]]]]] ->]]]. exists k, ids, lbls, j, l.
    split; [apply Hp, H1|]. repeat split; auto.
Qed.

Lemma labels_are_clusters out :
  mapper_labels X opens clust = Ok out ->
  length out = length X /\
  exists name, names_clusters X (yields opens) clust name /\
    forall i lbls, nth_error out i = Some lbls ->
    forall z, In z lbls <-> exists k l, in_cluster X (yields opens) clust k l i /\ z = name k l.
Proof.
  intro H. destruct (mapper_labels_closed X opens clust out H) as [_ [parts [Hp [_ [Hl Hn]]]]].
  split; [exact Hl|]. exists (name_of parts). split; [apply name_of_names, Hp|].
  intros i lbls Hi z. assert (Hlt := nth_error_lt _ _ _ Hi). rewrite Hn in Hi by lia.
  injection Hi as <-. apply in_all_sel_cluster, Hp.
Qed.

Lemma labels_ascending out :
  mapper_labels X opens clust = Ok out -> sets_nodup (yields opens) ->
  Forall (StronglySorted Z.lt) out.
Proof.
  intros H Hnd. destruct (mapper_labels_closed X opens clust out H) as [_ [parts [Hp [_ [Hl Hn]]]]].
  apply Forall_forall. intros lbls Hin. apply In_nth_error in Hin. destruct Hin as [i Hi].
  assert (Hlt := nth_error_lt _ _ _ Hi). rewrite Hn in Hi by lia. injection Hi as <-.
  apply all_sel_sorted. intros ids lbls Hin. apply In_nth_error in Hin. destruct Hin as [k Hk].
  apply Hp in Hk. destruct Hk as [Hk _]. unfold sets_nodup in Hnd. rewrite Forall_forall in Hnd.
  apply Hnd. eapply nth_error_In; eauto.
Qed.
End LP.
