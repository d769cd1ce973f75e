(** Lemmas about dictionaries. *)
From Verif Require Import Base BaseFacts Dict.

Section DF.
Context {A V : Type}.
Variable eqb : A -> A -> bool.
Hypothesis Heq : decides_eq eqb.
Notation dget := (@dget A V eqb).
Notation dset := (@dset A V eqb).

Lemma eqb_refl x : eqb x x = true.
Proof. apply Heq. reflexivity. Qed.
Lemma eqb_false x y : eqb x y = false <-> x <> y.
Proof.
  split.
  - intros H ->. rewrite eqb_refl in H. discriminate.
  - intro H. destruct (eqb x y) eqn:E; auto. apply Heq in E. contradiction.
Qed.
Lemma eqb_dec (x y : A) : {x = y} + {x <> y}.
Proof. destruct (eqb x y) eqn:E; [left; apply Heq; exact E | right; apply eqb_false; exact E]. Qed.

Lemma dget_dset d k v k' : dget (dset d k v) k' = if eqb k' k then Some v else dget d k'.
Proof.
  induction d as [|[a b] d IH]; simpl.
  - destruct (eqb k' k); reflexivity.
  - destruct (eqb k a) eqn:E; simpl.
    + apply Heq in E. subst a. destruct (eqb k' k); reflexivity.
    + rewrite IH. destruct (eqb k' a) eqn:E2.
      * apply Heq in E2. subst a. destruct (eqb k' k) eqn:E3; [|reflexivity].
        apply Heq in E3. subst k'. rewrite eqb_refl in E. discriminate.
      * reflexivity.
Qed.

Lemma dget_dset_same d k v : dget (dset d k v) k = Some v.
Proof. rewrite dget_dset, eqb_refl. reflexivity. Qed.

Lemma dget_dset_other d k v k' : k' <> k -> dget (dset d k v) k' = dget d k'.
Proof. intro H. rewrite dget_dset. apply eqb_false in H. rewrite H. reflexivity. Qed.

Lemma dget_in d k : (exists v, dget d k = Some v) <-> In k (dkeys d).
Proof.
  induction d as [|[a b] d IH]; simpl.
  - split; [intros [v H]; discriminate | tauto].
  - destruct (eqb k a) eqn:E.
    + apply Heq in E. subst. split; eauto.
    + apply eqb_false in E. rewrite IH. split; intuition congruence.
Qed.

Lemma dget_none d k : dget d k = None <-> ~ In k (dkeys d).
Proof.
  rewrite <- dget_in. destruct (dget d k) as [v|]; split; intro H; try discriminate; auto.
  - exfalso. apply H. eauto.
  - intros [v Hv]. discriminate.
Qed.

Lemma dget_entry d k v : dget d k = Some v -> In (k, v) d.
Proof.
  induction d as [|[a b] d IH]; simpl; [discriminate|].
  destruct (eqb k a) eqn:E; intro H.
  - apply Heq in E. subst. injection H as ->. left; reflexivity.
  - right. apply IH, H.
Qed.

Lemma dget_entry_nodup d k v : NoDup (dkeys d) -> In (k, v) d -> dget d k = Some v.
Proof.
  induction d as [|[a b] d IH]; simpl; [tauto|]. intros Hn [H|H].
  - injection H as -> ->. rewrite eqb_refl. reflexivity.
  - inversion Hn as [|x l Hx Hl]; subst. destruct (eqb k a) eqn:E.
    + apply Heq in E. subst. exfalso. apply Hx. apply (in_map fst) in H. exact H.
    + apply IH; auto.
Qed.

Lemma dkeys_dset d k v :
  dkeys (dset d k v) = if dmem eqb d k then dkeys d else dkeys d ++ [k].
Proof.
  unfold dmem. induction d as [|[a b] d IH]; simpl; [reflexivity|].
  destruct (eqb k a) eqn:E; simpl; [reflexivity|]. rewrite IH.
  destruct (dget d k); reflexivity.
Qed.

Lemma dkeys_dset_in d k v x : In x (dkeys (dset d k v)) <-> x = k \/ In x (dkeys d).
Proof.
  rewrite dkeys_dset. unfold dmem. destruct (dget d k) as [w|] eqn:E.
  - split; auto. intros [->|H]; auto. apply dget_in. eauto.
  - rewrite in_app_iff. simpl. intuition auto.
Qed.

Lemma dkeys_dset_nodup d k v : NoDup (dkeys d) -> NoDup (dkeys (dset d k v)).
Proof.
  intro H. rewrite dkeys_dset. unfold dmem. destruct (dget d k) as [w|] eqn:E; auto.
  apply dget_none in E.
  assert (G : forall (l : list A) x, NoDup l -> ~ In x l -> NoDup (l ++ [x])).
  { clear. induction l as [|y l IH]; intros x Hn Hx; simpl.
    - constructor; auto.
    - inversion Hn; subst. constructor.
      + rewrite in_app_iff. simpl. simpl in Hx. intuition.
      + apply IH; auto. simpl in Hx. tauto. }
  apply G; assumption.
Qed.

Lemma dict_of_gen (f : A -> V) items : forall d k,
  dget (fold_left (fun d x => dset d x (f x)) items d) k =
  if existsb (eqb k) items then Some (f k) else dget d k.
Proof.
  induction items as [|x items IH]; intros d k; simpl; [reflexivity|].
  rewrite IH, dget_dset. destruct (existsb (eqb k) items); [destruct (eqb k x); reflexivity|].
  destruct (eqb k x) eqn:E; simpl; [|reflexivity]. apply Heq in E. subst. reflexivity.
Qed.

Lemma existsb_in k items : existsb (eqb k) items = true <-> In k items.
Proof.
  rewrite existsb_exists. split.
  - intros [x [H1 H2]]. apply Heq in H2. subst. exact H1.
  - intro H. exists k. split; [exact H|apply eqb_refl].
Qed.

Lemma dict_of_in (f : A -> V) items k : In k items -> dget (dict_of eqb f items) k = Some (f k).
Proof.
  intro H. unfold dict_of. rewrite dict_of_gen. apply existsb_in in H. rewrite H. reflexivity.
Qed.

Lemma dict_of_notin (f : A -> V) items k : ~ In k items -> dget (dict_of eqb f items) k = None.
Proof.
  intro H. unfold dict_of. rewrite dict_of_gen.
  destruct (existsb (eqb k) items) eqn:E; [|reflexivity]. apply existsb_in in E. contradiction.
Qed.

Lemma dict_of_nodup (f : A -> V) items : NoDup (dkeys (dict_of eqb f items)).
Proof.
  unfold dict_of. assert (G : forall items d, NoDup (dkeys d) ->
    NoDup (dkeys (fold_left (fun d x => dset d x (f x)) items d))).
  { clear items. induction items as [|x items IH]; intros d H; simpl; auto.
    apply IH. apply dkeys_dset_nodup, H. }
  apply G. constructor.
Qed.

Lemma dict_of_keys (f : A -> V) items k : In k (dkeys (dict_of eqb f items)) <-> In k items.
Proof.
  split; intro H.
  - destruct (existsb (eqb k) items) eqn:E; [apply existsb_in; exact E|].
    assert (H2 : ~ In k items). { intro H2. apply existsb_in in H2. congruence. }
    apply (dict_of_notin f) in H2. apply dget_none in H2. contradiction.
  - apply dget_in. exists (f k). apply dict_of_in, H.
Qed.
End DF.
