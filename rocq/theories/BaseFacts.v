(** Lemmas about [Base] and [SpecArray]. *)
From Verif Require Import Base SpecArray.

Lemma bind_ok {A B} (r : res A) (f : A -> res B) b :
  bind r f = Ok b -> exists a, r = Ok a /\ f a = Ok b.
Proof. destruct r as [a|e]; simpl; [eauto | discriminate]. Qed.

Lemma rd_ok {A} (l : list A) i x : rd l i = Ok x <-> nth_error l i = Some x.
Proof.
  unfold rd; destruct (nth_error l i) as [y|]; split; intro H;
    inversion H; subst; reflexivity.
Qed.

Lemma rd_lt {A} (l : list A) i : i < length l -> exists x, rd l i = Ok x /\ nth_error l i = Some x.
Proof.
  intro H. destruct (nth_error l i) as [x|] eqn:E.
  - exists x. unfold rd. rewrite E. auto.
  - apply nth_error_None in E. lia.
Qed.

Lemma rd_ge {A} (l : list A) i : length l <= i -> rd l i = Err IndexError.
Proof. intro H. unfold rd. apply nth_error_None in H. rewrite H. reflexivity. Qed.

Lemma nth_error_skipn' {A} (l : list A) s i : nth_error (skipn s l) i = nth_error l (s + i).
Proof.
  revert l; induction s as [|s IH]; intro l; simpl; auto.
  destruct l; [destruct i; reflexivity | apply IH].
Qed.

Lemma nth_error_wr {A} (l : list A) i x j :
  i < length l ->
  nth_error (firstn i l ++ x :: skipn (S i) l) j =
  if j =? i then Some x else nth_error l j.
Proof.
  intro Hi. assert (Hf : length (firstn i l) = i) by (rewrite firstn_length; lia).
  destruct (Nat.eqb_spec j i) as [->|Hne].
  - rewrite nth_error_app2 by lia. rewrite Hf, Nat.sub_diag. reflexivity.
  - destruct (Nat.lt_ge_cases j i) as [Hlt|Hge].
    + rewrite nth_error_app1 by lia.
      revert i l Hi Hf Hne Hlt. induction j as [|j IH]; intros [|i] [|y l] Hi Hf Hne Hlt;
        simpl in *; try lia; auto. apply IH; try lia.
    + rewrite nth_error_app2 by lia. rewrite Hf.
      destruct (j - i) as [|m] eqn:Em; [lia|]. simpl.
      replace j with (S i + m) by lia.
      change (nth_error (skipn (S i) l) m = nth_error l (S i + m)).
      apply nth_error_skipn'.
Qed.

Lemma wr_ok {A} (l : list A) i x :
  i < length l ->
  exists l', wr l i x = Ok l' /\ length l' = length l /\
    (forall j, nth_error l' j = if j =? i then Some x else nth_error l j).
Proof.
  intro Hi. unfold wr. destruct (Nat.ltb_spec i (length l)) as [H|H]; [|lia].
  eexists. split; [reflexivity|]. split.
  - rewrite app_length, firstn_length. cbn [length]. rewrite skipn_length. lia.
  - intro j. apply nth_error_wr. exact Hi.
Qed.

Lemma wr_inv {A} (l : list A) i x l' :
  wr l i x = Ok l' ->
  i < length l /\ length l' = length l /\
    (forall j, nth_error l' j = if j =? i then Some x else nth_error l j).
Proof.
  intro H. unfold wr in H. destruct (Nat.ltb_spec i (length l)) as [Hi|Hi]; [|discriminate].
  destruct (wr_ok l i x Hi) as [l2 [H1 [H2 H3]]].
  unfold wr in H1. destruct (Nat.ltb_spec i (length l)); [|lia].
  rewrite H in H1. injection H1 as ->. auto.
Qed.

Lemma list_nth_ext {A} (l l' : list A) :
  length l = length l' -> (forall i, i < length l -> nth_error l i = nth_error l' i) -> l = l'.
Proof.
  revert l'; induction l as [|x l IH]; intros [|y l'] Hl H; simpl in *; try lia; auto.
  f_equal.
  - specialize (H 0 ltac:(lia)). simpl in H. congruence.
  - apply IH; [lia|]. intros i Hi. apply (H (S i)). lia.
Qed.

Lemma nth_error_lt {A} (l : list A) i x : nth_error l i = Some x -> i < length l.
Proof. intro H. apply nth_error_Some. congruence. Qed.

Lemma nth_error_ex {A} (l : list A) i : i < length l -> exists x, nth_error l i = Some x.
Proof. intro H. destruct (rd_lt l i H) as [x [_ Hx]]. eauto. Qed.

(** Invariant rule for counted loops. *)
Lemma for_range_inv {S} (body : nat -> S -> res S) (P : nat -> S -> Prop) n :
  forall s st,
  P s st ->
  (forall j st, s <= j < s + n -> P j st -> exists st', body j st = Ok st' /\ P (Datatypes.S j) st') ->
  exists st', for_range n s body st = Ok st' /\ P (s + n) st'.
Proof.
  induction n as [|n IH]; intros s st HP Hstep; cbn [for_range].
  - exists st. rewrite Nat.add_0_r. auto.
  - destruct (Hstep s st) as [st1 [H1 H2]]; [lia|exact HP|].
    rewrite H1. cbn [bind].
    destruct (IH (Datatypes.S s) st1 H2) as [st' [H3 H4]].
    + intros j st0 Hj. apply Hstep. lia.
    + exists st'. split; [exact H3|]. replace (s + Datatypes.S n) with (Datatypes.S s + n) by lia. exact H4.
Qed.

Lemma for_each_inv {A S} (body : A -> S -> res S) (P : list A -> S -> Prop) :
  forall l done st,
  P done st ->
  (forall done x rest st, P done st -> incl (x :: rest) l ->
     exists st', body x st = Ok st' /\ P (done ++ [x]) st') ->
  exists st', for_each l body st = Ok st' /\ P (done ++ l) st'.
Proof.
  induction l as [|x l IH]; intros done st HP Hstep; cbn [for_each].
  - exists st. rewrite app_nil_r. auto.
  - destruct (Hstep done x l st HP) as [st1 [H1 H2]]; [apply incl_refl|].
    rewrite H1. cbn [bind].
    destruct (IH (done ++ [x]) st1 H2) as [st' [H3 H4]].
    + intros d y rest s0 Hd Hincl. apply (Hstep d y rest s0 Hd).
      apply incl_tl. exact Hincl.
    + exists st'. split; [exact H3|]. rewrite <- app_assoc in H4. exact H4.
Qed.

(** Rearrangements. *)
Lemma rearranges_id s e : rearranges s e (fun i => i).
Proof. repeat split; intros; lia. Qed.

Lemma rearranges_comp s e f g :
  rearranges s e f -> rearranges s e g -> rearranges s e (fun i => f (g i)).
Proof.
  intros [Hf1 [Hf2 Hf3]] [Hg1 [Hg2 Hg3]]. split; [|split].
  - intros i Hi. apply Hf1, Hg1, Hi.
  - intros i j Hi Hj H. apply Hg2; auto.
  - intros i Hi. rewrite (Hg3 i Hi). apply Hf3, Hi.
Qed.

Lemma rearranges_widen s e s' e' f :
  s <= s' -> e' <= e -> rearranges s' e' f -> rearranges s e f.
Proof.
  intros Hs He [H1 [H2 H3]].
  assert (D : forall i, s' <= i < e' \/ ~ (s' <= i < e')) by (intro; lia).
  split; [|split].
  - intros i Hi. destruct (D i) as [Hin|Hout].
    + specialize (H1 i Hin). lia.
    + rewrite (H3 i Hout). lia.
  - intros i j Hi Hj Heq.
    destruct (D i) as [Di|Di], (D j) as [Dj|Dj].
    + apply H2; auto.
    + rewrite (H3 j Dj) in Heq. specialize (H1 i Di). lia.
    + rewrite (H3 i Di) in Heq. specialize (H1 j Dj). lia.
    + rewrite (H3 i Di), (H3 j Dj) in Heq. exact Heq.
  - intros i Hi. apply H3. lia.
Qed.

Definition transp (i j n : nat) : nat :=
  if n =? i then j else if n =? j then i else n.

Lemma transp_rearranges s e i j :
  s <= i < e -> s <= j < e -> rearranges s e (transp i j).
Proof.
  intros Hi Hj. unfold transp. split; [|split].
  - intros n Hn. destruct (Nat.eqb_spec n i), (Nat.eqb_spec n j); lia.
  - intros n m Hn Hm.
    destruct (Nat.eqb_spec n i), (Nat.eqb_spec n j), (Nat.eqb_spec m i), (Nat.eqb_spec m j); lia.
  - intros n Hn. destruct (Nat.eqb_spec n i), (Nat.eqb_spec n j); lia.
Qed.

Lemma moved_id {X} (l : list X) : moved (fun i => i) l l.
Proof. split; auto. Qed.

Lemma moved_comp {X} f g (l l1 l2 : list X) :
  moved f l l1 -> moved g l1 l2 -> moved (fun i => f (g i)) l l2.
Proof.
  intros [H1 H2] [H3 H4]. split; [congruence|]. intro i. rewrite H4. apply H2.
Qed.

Lemma moved_opt_id {X} (o : option (list X)) : moved_opt (fun i => i) o o.
Proof. destruct o; simpl; auto using moved_id. Qed.

Lemma moved_opt_comp {X} f g (o o1 o2 : option (list X)) :
  moved_opt f o o1 -> moved_opt g o1 o2 -> moved_opt (fun i => f (g i)) o o2.
Proof.
  destruct o, o1, o2; simpl; try tauto. apply moved_comp.
Qed.

Lemma moved_permutation {X} s e f (l l' : list X) :
  rearranges s e f -> e <= length l -> moved f l l' -> Permutation l l'.
Proof.
  intros [H1 [H2 H3]] He [Hl Hn]. apply Permutation_nth_error_bis.
  assert (D : forall i, s <= i < e \/ ~ (s <= i < e)) by (intro; lia).
  exists f. split; [|split].
  - intros i j Heq. destruct (D i) as [Di|Di], (D j) as [Dj|Dj].
    + apply H2; auto.
    + rewrite (H3 j Dj) in Heq. specialize (H1 i Di). lia.
    + rewrite (H3 i Di) in Heq. specialize (H1 j Dj). lia.
    + rewrite (H3 i Di), (H3 j Dj) in Heq. exact Heq.
  - intros i Hi. destruct (D i) as [Di|Di].
    + specialize (H1 i Di). lia.
    + rewrite (H3 i Di). exact Hi.
  - intro i. apply Hn.
Qed.

(** Slices. *)
Lemma slice_length {A} (l : list A) s e : e <= length l -> length (slice l s e) = e - s.
Proof. intro H. unfold slice. rewrite firstn_length, skipn_length. lia. Qed.

Lemma nth_error_firstn' {A} (l : list A) n i :
  nth_error (firstn n l) i = if i <? n then nth_error l i else None.
Proof.
  revert n i; induction l as [|x l IH]; intros [|n] [|i]; simpl; auto.
  - destruct (S i <? S n); reflexivity.
  - rewrite IH. reflexivity.
Qed.

Lemma nth_error_slice {A} (l : list A) s e i :
  nth_error (slice l s e) i = if s + i <? e then nth_error l (s + i) else None.
Proof.
  unfold slice. rewrite nth_error_firstn', nth_error_skipn'.
  destruct (Nat.ltb_spec i (e - s)), (Nat.ltb_spec (s + i) e); auto; lia.
Qed.

Lemma slice_full {A} (l : list A) : slice l 0 (length l) = l.
Proof. unfold slice. simpl. rewrite Nat.sub_0_r. apply firstn_all. Qed.

Lemma slice_nil {A} (l : list A) s e : e <= s -> slice l s e = [].
Proof. intro H. unfold slice. replace (e - s) with 0 by lia. reflexivity. Qed.

Lemma slice_split {A} (l : list A) s m e :
  s <= m -> m <= e -> slice l s e = slice l s m ++ slice l m e.
Proof.
  intros H1 H2. unfold slice.
  replace (e - s) with ((m - s) + (e - m)) by lia.
  rewrite firstn_add || idtac.
  assert (G : forall a b (k : list A), firstn (a + b) k = firstn a k ++ firstn b (skipn a k)).
  { clear. induction a as [|a IH]; intros b [|x k]; simpl; auto.
    - rewrite firstn_nil. reflexivity.
    - f_equal. apply IH. }
  try rewrite G. f_equal. f_equal.
  assert (G2 : forall a b (k : list A), skipn a (skipn b k) = skipn (b + a) k).
  { clear. intros a b; induction b as [|b IH]; intros [|x k]; simpl; auto.
    apply skipn_nil. }
  rewrite G2. f_equal. lia.
Qed.

Lemma slice_cons {A} (l : list A) s e x :
  s < e -> nth_error l s = Some x -> slice l s e = x :: slice l (S s) e.
Proof.
  intros H1 H2. rewrite (slice_split l s (S s) e) by lia.
  assert (E : slice l s (S s) = [x]).
  { unfold slice. replace (S s - s) with 1 by lia.
    assert (Hs : nth_error (skipn s l) 0 = Some x) by (rewrite nth_error_skipn', Nat.add_0_r; exact H2).
    destruct (skipn s l); simpl in *; congruence. }
  rewrite E. reflexivity.
Qed.

Lemma moved_slice_perm {X} s e f (l l' : list X) :
  rearranges s e f -> e <= length l -> moved f l l' ->
  Permutation (slice l s e) (slice l' s e).
Proof.
  intros HR He [Hl Hn]. destruct HR as [H1 [H2 H3]].
  assert (Hpre : firstn s l = firstn s l').
  { apply list_nth_ext.
    - rewrite !firstn_length. lia.
    - intros i Hi. rewrite !nth_error_firstn'.
      destruct (Nat.ltb_spec i s) as [Hlt|Hge]; auto.
      rewrite Hn, H3 by lia. reflexivity. }
  assert (Hpost : skipn e l = skipn e l').
  { apply list_nth_ext.
    - rewrite !skipn_length. lia.
    - intros i Hi. rewrite !nth_error_skipn'. rewrite Hn, H3 by lia. reflexivity. }
  destruct (Nat.le_gt_cases s e) as [Hse|Hse]; [|rewrite !slice_nil by lia; constructor].
  assert (P : Permutation l l').
  { apply (moved_permutation s e f); repeat split; auto; try (apply H1; auto); intros; apply H2; auto. }
  assert (S1 : l = firstn s l ++ slice l s e ++ skipn e l).
  { rewrite <- (firstn_skipn s l) at 1. f_equal. unfold slice.
    rewrite <- (firstn_skipn (e - s) (skipn s l)) at 1. f_equal.
    apply list_nth_ext; [rewrite !skipn_length; lia|].
    intros i Hi. rewrite !nth_error_skipn'. f_equal. lia. }
  assert (S2 : l' = firstn s l' ++ slice l' s e ++ skipn e l').
  { rewrite <- (firstn_skipn s l') at 1. f_equal. unfold slice.
    rewrite <- (firstn_skipn (e - s) (skipn s l')) at 1. f_equal.
    apply list_nth_ext; [rewrite !skipn_length; lia|].
    intros i Hi. rewrite !nth_error_skipn'. f_equal. lia. }
  rewrite S1, S2, <- Hpre, <- Hpost in P.
  apply Permutation_app_inv_l in P. apply Permutation_app_inv_r in P. exact P.
Qed.
