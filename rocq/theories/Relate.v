(** The tree, the covers and the net treat points and distances only through the
    metric and the comparisons: runs on related inputs stay related. Used to carry
    theorems from exact to rounded arithmetic and along changes of scale. *)
From Verif Require Import Base BaseFacts ModelQuickselect ModelHeap ModelVPTree ModelCore ModelCover.
Open Scope nat_scope.

Section Rel.
Context {A B : Type}.
Inductive res_rel (R : A -> B -> Prop) : res A -> res B -> Prop :=
| rr_ok : forall a b, R a b -> res_rel R (Ok a) (Ok b)
| rr_err : forall e, res_rel R (Err e) (Err e).

Inductive opt_rel (R : A -> B -> Prop) : option A -> option B -> Prop :=
| or_none : opt_rel R None None
| or_some : forall a b, R a b -> opt_rel R (Some a) (Some b).
End Rel.

Definition prod_rel {A B A' B'} (R : A -> A' -> Prop) (Q : B -> B' -> Prop) (p : A * B) (p' : A' * B') : Prop :=
  R (fst p) (fst p') /\ Q (snd p) (snd p').

Lemma bind_rel {A B A' B'} (R : A -> A' -> Prop) (Q : B -> B' -> Prop) r r' f f' :
  res_rel R r r' -> (forall a a', R a a' -> res_rel Q (f a) (f' a')) -> res_rel Q (bind r f) (bind r' f').
Proof. intros H K. destruct H; simpl; [auto|constructor]. Qed.

Lemma res_rel_eq {A} (r r' : res A) : res_rel eq r r' <-> r = r'.
Proof.
  split; [intro H; destruct H; congruence|]. intros <-. destruct r; constructor; reflexivity.
Qed.

Lemma res_rel_impl {A B} (R Q : A -> B -> Prop) r r' : (forall a b, R a b -> Q a b) -> res_rel R r r' -> res_rel Q r r'.
Proof. intros H K. destruct K; constructor; auto. Qed.

Section Lists.
Context {A B : Type}.
Variable R : A -> B -> Prop.

Lemma F2_length l l' : Forall2 R l l' -> length l = length l'.
Proof. intro H. induction H; simpl; congruence. Qed.

Lemma F2_nth l l' i : Forall2 R l l' -> opt_rel R (nth_error l i) (nth_error l' i).
Proof.
  intro H. revert i. induction H; intros [|i]; simpl; try constructor; auto.
Qed.

Lemma rd_rel l l' i : Forall2 R l l' -> res_rel R (rd l i) (rd l' i).
Proof. intro H. unfold rd. destruct (F2_nth l l' i H); constructor; auto. Qed.

Lemma F2_firstn l l' i : Forall2 R l l' -> Forall2 R (firstn i l) (firstn i l').
Proof. intro H. revert i. induction H; intros [|i]; simpl; constructor; auto. Qed.
Lemma F2_skipn l l' i : Forall2 R l l' -> Forall2 R (skipn i l) (skipn i l').
Proof. intro H. revert i. induction H; intros [|i]; simpl; try constructor; auto. Qed.
Lemma F2_slice l l' s e : Forall2 R l l' -> Forall2 R (slice l s e) (slice l' s e).
Proof. intro H. apply F2_firstn, F2_skipn, H. Qed.
Lemma F2_app l l' m m' : Forall2 R l l' -> Forall2 R m m' -> Forall2 R (l ++ m) (l' ++ m').
Proof. apply Forall2_app. Qed.
Lemma F2_removelast l l' : Forall2 R l l' -> Forall2 R (removelast l) (removelast l').
Proof. intro H. induction H; simpl; [constructor|]. destruct H0; constructor; auto. Qed.
Lemma F2_repeat x x' n : R x x' -> Forall2 R (repeat x n) (repeat x' n).
Proof. intro H. induction n; simpl; constructor; auto. Qed.

Lemma wr_rel l l' i x x' : Forall2 R l l' -> R x x' -> res_rel (Forall2 R) (wr l i x) (wr l' i x').
Proof.
  intros H Hx. unfold wr. rewrite (F2_length _ _ H). destruct (i <? length l'); constructor.
  apply F2_app; [apply F2_firstn, H|]. constructor; [exact Hx|]. apply F2_skipn, H.
Qed.

Lemma swap_rel l l' i j : Forall2 R l l' -> res_rel (Forall2 R) (swap l i j) (swap l' i j).
Proof.
  intro H. unfold swap. eapply bind_rel; [apply rd_rel, H|]. intros xj xj' Hj.
  eapply bind_rel; [apply rd_rel, H|]. intros xi xi' Hi.
  eapply bind_rel; [apply wr_rel; eauto|]. intros a a' Ha. apply wr_rel; auto.
Qed.

Lemma F2_filter f f' l l' : Forall2 R l l' -> (forall x x', R x x' -> f x = f' x') -> Forall2 R (filter f l) (filter f' l').
Proof. intros H K. induction H; simpl; [constructor|]. rewrite (K _ _ H). destruct (f' y); auto. Qed.

Lemma map_res_rel {C D} (Q : C -> D -> Prop) f f' l l' :
  Forall2 R l l' -> (forall x x', R x x' -> res_rel Q (f x) (f' x')) -> res_rel (Forall2 Q) (map_res f l) (map_res f' l').
Proof.
  intros H K. induction H; simpl; [constructor; constructor|].
  eapply bind_rel; [apply K; eassumption|]. intros a a' Ha.
  eapply bind_rel; [apply IHForall2|]. intros b b' Hb. constructor. constructor; auto.
Qed.

Lemma for_each_rel {S S'} (Q : S -> S' -> Prop) l l' body body' st st' :
  Forall2 R l l' -> Q st st' ->
  (forall x x' s s', R x x' -> Q s s' -> res_rel Q (body x s) (body' x' s')) ->
  res_rel Q (for_each l body st) (for_each l' body' st').
Proof.
  intros H Hs K. revert st st' Hs. induction H; intros st st' Hs; simpl; [constructor; auto|].
  eapply bind_rel; [apply K; eauto|]. auto.
Qed.

Lemma F2_map {C D} (Q : C -> D -> Prop) f f' l l' :
  Forall2 R l l' -> (forall x x', R x x' -> Q (f x) (f' x')) -> Forall2 Q (map f l) (map f' l').
Proof. intros H K. induction H; simpl; constructor; auto. Qed.
End Lists.

Lemma F2_eq {A} (l l' : list A) : Forall2 eq l l' <-> l = l'.
Proof.
  split; [intro H; induction H; congruence|]. intros <-. induction l; constructor; auto.
Qed.

Lemma for_range_rel {S S'} (Q : S -> S' -> Prop) n s body body' st st' :
  Q st st' -> (forall j a a', Q a a' -> res_rel Q (body j a) (body' j a')) ->
  res_rel Q (for_range n s body st) (for_range n s body' st').
Proof.
  intros H K. revert s st st' H. induction n as [|n IH]; intros s st st' H; simpl; [constructor; auto|].
  eapply bind_rel; [apply K; eauto|]. auto.
Qed.

(** *** quickselect, heap *)
Section Keys.
Context {K K' : Type}.
Variable RK : K -> K' -> Prop.
Variables (ltb : K -> K -> bool) (ltb' : K' -> K' -> bool).
Hypothesis Hltb : forall a a' b b', RK a a' -> RK b b' -> ltb a b = ltb' a' b'.

Definition qs_rel {A B} (s : qstate K A B) (s' : qstate K' A B) : Prop :=
  Forall2 RK (qdata s) (qdata s') /\ qextra1 s = qextra1 s' /\ qextra2 s = qextra2 s'.

Lemma swap_all_rel {A B} (s : qstate K A B) s' i j : qs_rel s s' -> res_rel qs_rel (swap_all s i j) (swap_all s' i j).
Proof.
  intros [H1 [H2 H3]]. unfold swap_all. eapply bind_rel; [apply swap_rel, H1|]. intros d d' Hd.
  rewrite H2, H3. destruct (swap_opt (qextra1 s') i j); simpl; [|constructor].
  destruct (swap_opt (qextra2 s') i j); simpl; constructor. split; auto.
Qed.

Lemma partition_rel {A B} (s : qstate K A B) s' a b p p' : qs_rel s s' -> RK p p' ->
  res_rel (prod_rel eq qs_rel) (partition ltb s a b p) (partition ltb' s' a b p').
Proof.
  intros H Hp. unfold partition. apply for_range_rel; [split; auto|].
  intros j [h st] [h' st'] [Hh Hst]. simpl in Hh. subst h'. simpl in Hst. unfold partition_step.
  eapply bind_rel; [apply rd_rel, Hst|]. intros x x' Hx. rewrite (Hltb _ _ _ _ Hx Hp).
  destruct (ltb' x' p'); [|constructor; split; auto].
  eapply bind_rel; [apply swap_all_rel, Hst|]. intros c c' Hc. constructor. split; auto.
Qed.

Lemma quickselect_rel {A B} (s : qstate K A B) s' a b k : qs_rel s s' ->
  res_rel qs_rel (quickselect ltb s a b k) (quickselect ltb' s' a b k).
Proof.
  intro H. unfold quickselect. destruct ((k <? a) || (b <=? k)); [constructor; auto|].
  generalize (2 * (b - a) + 1). intro n. revert s s' a b H.
  induction n as [|n IH]; intros s s' a b H; simpl; [constructor|].
  eapply bind_rel; [apply rd_rel, H|]. intros p p' Hp.
  eapply bind_rel; [apply swap_all_rel, H|]. intros s1 s1' H1.
  eapply bind_rel; [apply partition_rel; eauto|]. intros [h s2] [h' s2'] [Hh H2]. simpl in Hh, H2. subst h'.
  eapply bind_rel; [apply swap_all_rel, H2|]. intros s3 s3' H3.
  destruct (h =? S k); [constructor; auto|]. destruct (k <=? h - 1); apply IH; auto.
Qed.

Context {V V' : Type}.
Variable RV : V -> V' -> Prop.
Notation RN := (prod_rel RK RV).
Notation RH := (Forall2 RN).

Lemma node_lt_rel a a' b b' : RN a a' -> RN b b' -> node_lt ltb a b = node_lt ltb' a' b'.
Proof. intros [H _] [H' _]. apply Hltb; auto. Qed.

Lemma get_local_max_rel h h' i : RH h h' -> res_rel eq (get_local_max ltb h i) (get_local_max ltb' h' i).
Proof.
  intro H. unfold get_local_max. rewrite (F2_length _ _ _ H).
  destruct (length h' <=? left_ i); [constructor; auto|].
  destruct (length h' <=? right_ i).
  - eapply bind_rel; [apply rd_rel, H|]. intros x x' Hx. eapply bind_rel; [apply rd_rel, H|]. intros l l' Hl.
    rewrite (node_lt_rel _ _ _ _ Hx Hl). destruct (node_lt ltb' x' l'); constructor; auto.
  - eapply bind_rel; [apply rd_rel, H|]. intros l l' Hl. eapply bind_rel; [apply rd_rel, H|]. intros r r' Hr.
    eapply bind_rel; [apply rd_rel, H|]. intros x x' Hx. cbv zeta. rewrite (node_lt_rel _ _ _ _ Hl Hr).
    eapply bind_rel; [apply rd_rel, H|]. intros m m' Hm. rewrite (node_lt_rel _ _ _ _ Hx Hm).
    destruct (node_lt ltb' x' m'); constructor; auto.
Qed.

Lemma fix_down_rel h h' i : RH h h' -> res_rel (prod_rel eq RH) (fix_down ltb h i) (fix_down ltb' h' i).
Proof.
  intro H. unfold fix_down. eapply bind_rel; [apply get_local_max_rel, H|]. intros m m' <-.
  destruct (i <? m); [|constructor; split; auto].
  eapply bind_rel; [apply swap_rel, H|]. intros c c' Hc. constructor. split; auto.
Qed.

Lemma fix_up_rel h h' i : RH h h' -> res_rel (prod_rel eq RH) (fix_up ltb h i) (fix_up ltb' h' i).
Proof.
  intro H. unfold fix_up. eapply bind_rel; [apply rd_rel, H|]. intros p p' Hp.
  eapply bind_rel; [apply rd_rel, H|]. intros x x' Hx. rewrite (node_lt_rel _ _ _ _ Hp Hx).
  destruct (node_lt ltb' p' x'); [|constructor; split; auto].
  eapply bind_rel; [apply swap_rel, H|]. intros c c' Hc. constructor. split; auto.
Qed.

Lemma bubble_down_rel n h h' i : RH h h' -> res_rel RH (bubble_down ltb n h i) (bubble_down ltb' n h' i).
Proof.
  revert h h' i. induction n as [|n IH]; intros h h' i H; simpl; [constructor|].
  eapply bind_rel; [apply fix_down_rel, H|]. intros [m g] [m' g'] [Hm Hg]. simpl in Hm, Hg. subst m'.
  destruct (i =? m); [constructor; auto|]. apply IH, Hg.
Qed.

Lemma bubble_up_rel n h h' i : RH h h' -> res_rel RH (bubble_up ltb n h i) (bubble_up ltb' n h' i).
Proof.
  revert h h' i. induction n as [|n IH]; intros h h' i H; simpl; [constructor|].
  eapply bind_rel; [apply fix_up_rel, H|]. intros [m g] [m' g'] [Hm Hg]. simpl in Hm, Hg. subst m'.
  destruct (m =? i); [constructor; auto|]. apply IH, Hg.
Qed.

Lemma heap_add_rel h h' k k' v v' : RH h h' -> RK k k' -> RV v v' ->
  res_rel RH (heap_add ltb h k v) (heap_add ltb' h' k' v').
Proof.
  intros H Hk Hv. unfold heap_add.
  assert (H1 : RH (h ++ [(k, v)]) (h' ++ [(k', v')])).
  { apply F2_app; auto. constructor; [split; auto|constructor]. }
  rewrite (F2_length _ _ _ H1). apply bubble_up_rel, H1.
Qed.

Lemma heap_top_rel h h' : RH h h' -> opt_rel RN (heap_top h) (heap_top h').
Proof. intro H. destruct H; constructor; auto. Qed.

Lemma heap_pop_rel h h' : RH h h' -> res_rel (prod_rel (opt_rel RN) RH) (heap_pop ltb h) (heap_pop ltb' h').
Proof.
  intro H. unfold heap_pop. destruct H as [|x x' l l' Hx Hl]; [constructor; split; constructor|].
  assert (H : RH (x :: l) (x' :: l')) by (constructor; auto).
  rewrite (F2_length _ _ _ H).
  eapply bind_rel; [apply rd_rel, H|]. intros y y' Hy.
  eapply bind_rel; [apply wr_rel; eauto|]. intros g g' Hg. cbv zeta.
  rewrite (F2_length _ _ _ (F2_removelast _ _ _ Hg)).
  eapply bind_rel; [apply bubble_down_rel, F2_removelast, Hg|]. intros z z' Hz.
  constructor. split; [constructor; auto|exact Hz].
Qed.
End Keys.

(** *** The tree *)
Section Tree.
Context {T T' D D' : Type}.
Variable RT : T -> T' -> Prop.
Variable RD : D -> D' -> Prop.
Variables (metric : T -> T -> D) (metric' : T' -> T' -> D').
Variables (leb ltb : D -> D -> bool) (leb' ltb' : D' -> D' -> bool).
Variables (gap : D -> D -> D) (gap' : D' -> D' -> D').
Variables (zero : D) (zero' : D').
Hypothesis Hmetric : forall x x' y y', RT x x' -> RT y y' -> RD (metric x y) (metric' x' y').
Hypothesis Hleb : forall a a' b b', RD a a' -> RD b b' -> leb a b = leb' a' b'.
Hypothesis Hltb : forall a a' b b', RD a a' -> RD b b' -> ltb a b = ltb' a' b'.
Hypothesis Hgap : forall a a' b b', RD a a' -> RD b b' -> RD (gap a b) (gap' a' b').
Hypothesis Hzero : RD zero zero'.

Definition par_rel (p : vparams D) (p' : vparams D') : Prop :=
  leaf_capacity p = leaf_capacity p' /\ RD (leaf_radius p) (leaf_radius p') /\
  pivot_kind p = pivot_kind p' /\ rng p = rng p'.
Variables (par : vparams D) (par' : vparams D').
Hypothesis Hpar : par_rel par par'.
Variables (X : list T) (X' : list T').
Hypothesis HX : Forall2 RT X X'.
Notation RS := (@qs_rel D D' RD nat bool).

Lemma HXl : length X = length X'.
Proof. eapply F2_length, HX. Qed.

Lemma get_point_rel st st' i : RS st st' -> res_rel RT (get_point X st i) (get_point X' st' i).
Proof.
  intros [_ [H _]]. unfold get_point, get_index. rewrite H. destruct (qextra1 st') as [l|]; [|constructor].
  destruct (rd l i); simpl; [apply rd_rel, HX|constructor].
Qed.

Lemma get_points_rel st st' s e : RS st st' -> res_rel (Forall2 RT) (get_points X st s e) (get_points X' st' s e).
Proof.
  intros [_ [H _]]. unfold get_points. rewrite H. destruct (qextra1 st') as [l|]; [|constructor].
  apply map_res_rel with (R := eq); [apply F2_eq; reflexivity|]. intros x ? <-. apply rd_rel, HX.
Qed.

Lemma get_distance_rel st st' i : RS st st' -> res_rel RD (get_distance st i) (get_distance st' i).
Proof. intros [H _]. apply rd_rel, H. Qed.

Lemma set_distance_rel st st' i x x' : RS st st' -> RD x x' -> res_rel RS (set_distance st i x) (set_distance st' i x').
Proof.
  intros [H1 [H2 H3]] Hx. unfold set_distance. eapply bind_rel; [apply wr_rel; eauto|].
  intros d d' Hd. constructor. split; auto.
Qed.

Lemma is_terminal_rel st st' i : RS st st' -> res_rel eq (is_terminal st i) (is_terminal st' i).
Proof. intros [H1 [H2 H3]]. unfold is_terminal. rewrite H3. apply res_rel_eq. reflexivity. Qed.

Lemma set_terminal_rel st st' i b : RS st st' -> res_rel RS (set_terminal st i b) (set_terminal st' i b).
Proof.
  intros [H1 [H2 H3]]. unfold set_terminal. rewrite H3. destruct (qextra2 st'); [|constructor].
  destruct (wr l i b); simpl; constructor. split; auto.
Qed.

Lemma furthest_rel st st' s e i : RS st st' ->
  res_rel eq (furthest metric ltb zero X st s e i) (furthest metric' ltb' zero' X' st' s e i).
Proof.
  intro H. unfold furthest. eapply bind_rel; [apply get_point_rel, H|]. intros x x' Hx.
  eapply bind_rel; [apply for_range_rel with (Q := prod_rel RD eq)|].
  - split; [exact Hzero|reflexivity].
  - intros j [a n] [a' n'] [Ha Hn]. simpl in Ha, Hn. subst n'.
    eapply bind_rel; [apply get_point_rel, H|]. intros y y' Hy. cbv zeta.
    rewrite (Hltb _ _ _ _ Ha (Hmetric _ _ _ _ Hx Hy)).
    destruct (ltb' a' (metric' x' y')); constructor; split; auto. apply Hmetric; auto.
  - intros r r' [_ Hr]. constructor. exact Hr.
Qed.

Lemma pivoting_rel c st st' s e : RS st st' ->
  res_rel (prod_rel eq RS) (pivoting_ metric ltb zero par X c st s e) (pivoting_ metric' ltb' zero' par' X' c st' s e).
Proof.
  intro H. unfold pivoting_, randrange. destruct Hpar as [_ [_ [Hk Hr]]]. rewrite Hk, Hr.
  destruct (pivot_kind par'); [constructor; split; auto| |].
  - destruct (e <=? s); [constructor; split; auto|]. cbv zeta.
    destruct (s <? s + rng par' c mod (e - s)); [|constructor; split; auto].
    eapply bind_rel; [apply swap_all_rel, H|]. intros ? ? ?. constructor; split; auto.
  - destruct (e <=? s); [constructor; split; auto|]. cbv zeta.
    eapply bind_rel; [apply furthest_rel, H|]. intros f ? <-.
    eapply bind_rel; [apply furthest_rel, H|]. intros g ? <-.
    destruct (s <? g); [|constructor; split; auto].
    eapply bind_rel; [apply swap_all_rel, H|]. intros ? ? ?. constructor; split; auto.
Qed.

Lemma update_step_rel v v' fl i st st' : RS st st' -> RT v v' ->
  res_rel RS (update_step metric X v fl i st) (update_step metric' X' v' fl i st').
Proof.
  intros H Hv. unfold update_step. eapply bind_rel; [apply get_point_rel, H|]. intros x x' Hx.
  eapply bind_rel; [apply set_distance_rel; [exact H|apply Hmetric; eauto]|]. intros s1 s1' H1.
  destruct fl; [apply set_terminal_rel, H1|constructor; exact H1].
Qed.

Lemma update_flat_rel c st st' s e : RS st st' ->
  res_rel (prod_rel eq RS) (update_flat metric ltb zero par X c st s e) (update_flat metric' ltb' zero' par' X' c st' s e).
Proof.
  intro H. unfold update_flat. eapply bind_rel; [apply pivoting_rel, H|].
  intros [c1 s1] [c1' s1'] [Hc H1]. simpl in Hc, H1. subst c1'.
  eapply bind_rel; [apply get_point_rel, H1|]. intros v v' Hv.
  eapply bind_rel; [apply is_terminal_rel, H1|]. intros b ? <-.
  eapply bind_rel; [apply for_range_rel with (Q := RS); [exact H1|]|].
  - intros j a a' Ha. apply update_step_rel; auto.
  - intros s2 s2' H2. constructor. split; auto.
Qed.

Lemma update_hier_rel c st st' s e : RS st st' ->
  res_rel (prod_rel eq RS) (update_hier metric ltb zero par X c st s e) (update_hier metric' ltb' zero' par' X' c st' s e).
Proof.
  intro H. unfold update_hier. eapply bind_rel; [apply pivoting_rel, H|].
  intros [c1 s1] [c1' s1'] [Hc H1]. simpl in Hc, H1. subst c1'.
  eapply bind_rel; [apply get_point_rel, H1|]. intros v v' Hv.
  eapply bind_rel; [apply for_range_rel with (Q := RS); [exact H1|]|].
  - intros j a a' Ha. apply update_step_rel; auto.
  - intros s2 s2' H2. constructor. split; auto.
Qed.

Lemma build_loop_rel n : forall stack c st st', RS st st' ->
  res_rel RS (build_loop metric ltb zero par X n stack c st) (build_loop metric' ltb' zero' par' X' n stack c st').
Proof.
  induction n as [|n IH]; intros [|[s e] rest] c st st' H; try (constructor; auto).
  change (res_rel RS
    (do cs <- update_flat metric ltb zero par X c st s e;
     let '(c1, st1) := cs in
     do st2 <- quickselect ltb st1 (S s) e (mid_ s e);
     do v_radius <- get_distance st2 (mid_ s e);
     if (2 * leaf_capacity par <? e - s) && ltb (leaf_radius par) v_radius then
       do st3 <- set_distance st2 s v_radius;
       do st4 <- set_terminal st3 s false;
       build_loop metric ltb zero par X n ((S s, mid_ s e) :: (mid_ s e, e) :: rest) c1 st4
     else
       do st3 <- set_distance st2 s v_radius;
       do st4 <- set_terminal st3 s true;
       build_loop metric ltb zero par X n rest c1 st4)
    (do cs <- update_flat metric' ltb' zero' par' X' c st' s e;
     let '(c1, st1) := cs in
     do st2 <- quickselect ltb' st1 (S s) e (mid_ s e);
     do v_radius <- get_distance st2 (mid_ s e);
     if (2 * leaf_capacity par' <? e - s) && ltb' (leaf_radius par') v_radius then
       do st3 <- set_distance st2 s v_radius;
       do st4 <- set_terminal st3 s false;
       build_loop metric' ltb' zero' par' X' n ((S s, mid_ s e) :: (mid_ s e, e) :: rest) c1 st4
     else
       do st3 <- set_distance st2 s v_radius;
       do st4 <- set_terminal st3 s true;
       build_loop metric' ltb' zero' par' X' n rest c1 st4)).
  eapply bind_rel; [apply update_flat_rel, H|]. intros [c1 s1] [c1' s1'] [Hc H1]. simpl in Hc, H1. subst c1'.
  eapply bind_rel; [apply (quickselect_rel RD ltb ltb' Hltb), H1|]. intros s2 s2' H2.
  eapply bind_rel; [apply get_distance_rel, H2|]. intros r r' Hr.
  destruct Hpar as [Hc [Hl _]]. rewrite Hc, (Hltb _ _ _ _ Hl Hr).
  destruct ((2 * leaf_capacity par' <? e - s) && ltb' (leaf_radius par') r').
  - eapply bind_rel; [apply set_distance_rel; eauto|]. intros s3 s3' H3.
    eapply bind_rel; [apply set_terminal_rel, H3|]. intros s4 s4' H4. apply IH, H4.
  - eapply bind_rel; [apply set_distance_rel; eauto|]. intros s3 s3' H3.
    eapply bind_rel; [apply set_terminal_rel, H3|]. intros s4 s4' H4. apply IH, H4.
Qed.

Lemma build_flat_rel : res_rel RS (build_flat metric ltb zero par X) (build_flat metric' ltb' zero' par' X').
Proof.
  unfold build_flat. cbv zeta. rewrite HXl.
  assert (H : RS (mkq (repeat zero (length X')) (Some (seq 0 (length X'))) (Some (repeat false (length X'))))
                 (mkq (repeat zero' (length X')) (Some (seq 0 (length X'))) (Some (repeat false (length X'))))).
  { split; [apply F2_repeat, Hzero|split; reflexivity]. }
  destruct (0 <? length X'); [apply build_loop_rel, H|constructor; exact H].
Qed.

Lemma inside_rel eps eps' b x x' : RD eps eps' -> RD x x' -> inside leb ltb eps b x = inside leb' ltb' eps' b x'.
Proof. intros He Hx. unfold inside. destruct b; auto. Qed.

Lemma ball_leaf_rel q q' eps eps' b xs xs' r r' : RT q q' -> RD eps eps' -> Forall2 RT xs xs' -> Forall2 RT r r' ->
  Forall2 RT (ball_leaf metric leb ltb q eps b xs r) (ball_leaf metric' leb' ltb' q' eps' b xs' r').
Proof.
  intros Hq He Hxs Hr. apply F2_app; [exact Hr|]. apply F2_filter; [exact Hxs|].
  intros x x' Hx. apply inside_rel; auto.
Qed.

Lemma ball_loop_rel q q' eps eps' b : RT q q' -> RD eps eps' -> forall n stack st st' r r', RS st st' -> Forall2 RT r r' ->
  res_rel (Forall2 RT) (ball_loop metric leb ltb gap X n st q eps b stack r)
                       (ball_loop metric' leb' ltb' gap' X' n st' q' eps' b stack r').
Proof.
  intros Hq He. induction n as [|n IH]; intros [|[s e] rest] st st' r r' H Hr; try (constructor; auto).
  cbn [ball_loop].
  eapply bind_rel; [apply get_distance_rel, H|]. intros v v' Hv.
  eapply bind_rel; [apply get_point_rel, H|]. intros p p' Hp.
  eapply bind_rel; [apply is_terminal_rel, H|]. intros t ? <-.
  destruct t.
  - eapply bind_rel; [apply get_points_rel, H|]. intros xs xs' Hxs. apply IH; [exact H|].
    apply ball_leaf_rel; auto.
  - cbv zeta. assert (Hd := Hmetric _ _ _ _ Hq Hp).
    rewrite (inside_rel _ _ b _ _ He Hd), (Hleb _ _ _ _ Hd Hv), (Hleb _ _ _ _ (Hgap _ _ _ _ Hd Hv) He).
    destruct (leb' (metric' q' p') v'); apply IH; auto; destruct (inside leb' ltb' eps' b (metric' q' p')); auto;
      apply F2_app; auto.
Qed.

Lemma ball_flat_rel q q' eps eps' b st st' : RT q q' -> RD eps eps' -> RS st st' ->
  res_rel (Forall2 RT) (ball_flat metric leb ltb gap X st q eps b) (ball_flat metric' leb' ltb' gap' X' st' q' eps' b).
Proof. intros. unfold ball_flat. rewrite HXl. apply ball_loop_rel; auto. Qed.

(** *** nearest neighbours *)
Notation RH := (Forall2 (prod_rel RD RT)).

Lemma pop_while_rel n k h h' : RH h h' -> res_rel RH (pop_while ltb n k h) (pop_while ltb' n k h').
Proof.
  revert h h'. induction n as [|n IH]; intros h h' H; simpl; rewrite (F2_length _ _ _ H).
  - destruct (k <? length h'); constructor; auto.
  - destruct (k <? length h'); [|constructor; auto].
    eapply bind_rel; [apply (heap_pop_rel RD ltb ltb' Hltb RT), H|]. intros r r' [_ Hr]. apply IH, Hr.
Qed.

Lemma F2_snd h h' : RH h h' -> Forall2 RT (map snd h) (map snd h').
Proof. intro H. eapply F2_map; [exact H|]. intros x x' [_ Hx]. exact Hx. Qed.

Lemma get_items_rel k h h' : RH h h' -> res_rel (prod_rel RH (Forall2 RT)) (get_items ltb k h) (get_items ltb' k h').
Proof.
  intro H. unfold get_items. rewrite (F2_length _ _ _ H).
  eapply bind_rel; [apply pop_while_rel, H|]. intros g g' Hg. constructor. split; [exact Hg|apply F2_snd, Hg].
Qed.

Notation RP := (prod_rel RH (opt_rel RD)).

Lemma process_rel k q q' x x' s s' : RT q q' -> RT x x' -> RP s s' ->
  res_rel (prod_rel RD RP) (process metric leb ltb k q x s) (process metric' leb' ltb' k q' x' s').
Proof.
  intros Hq Hx. destruct s as [h r], s' as [h' r']. intros [Hh Hr]. simpl in Hh, Hr. unfold process. cbv zeta.
  assert (Hd := Hmetric _ _ _ _ Hq Hx).
  assert (E : match r with None => false | Some r => leb r (metric q x) end
            = match r' with None => false | Some r => leb' r (metric' q' x') end).
  { destruct Hr; [reflexivity|]. apply Hleb; auto. }
  rewrite E. destruct (match r' with None => false | Some r => leb' r (metric' q' x') end).
  - constructor. split; [exact Hd|]. split; auto.
  - eapply bind_rel; [apply (heap_add_rel RD ltb ltb' Hltb RT); eauto|]. intros g g' Hg.
    rewrite (F2_length _ _ _ Hg). eapply bind_rel; [apply pop_while_rel, Hg|]. intros f f' Hf.
    constructor. split; [exact Hd|]. split; [exact Hf|]. simpl. rewrite (F2_length _ _ _ Hf).
    destruct (length f' =? k); [|exact Hr].
    destruct (heap_top_rel RD RT f f' Hf) as [|[a b] [a' b'] [Ha _]]; [exact Hr|constructor; exact Ha].
Qed.

Definition stack_rel (p : nat * nat * D * action) (p' : nat * nat * D' * action) : Prop :=
  fst (fst p) = fst (fst p') /\ RD (snd (fst p)) (snd (fst p')) /\ snd p = snd p'.

Lemma knn_loop_rel k q q' : RT q q' -> forall n stack stack' st st' s s', Forall2 stack_rel stack stack' -> RS st st' -> RP s s' ->
  res_rel RP (knn_loop metric leb ltb gap zero X n st k q stack s) (knn_loop metric' leb' ltb' gap' zero' X' n st' k q' stack' s').
Proof.
  intros Hq. induction n as [|n IH]; intros stack stack' st st' s s' Hst H Hs.
  - destruct Hst as [|[[[a b] t] u] [[[a' b'] t'] u'] rest rest' Hp Hrest]; constructor; auto.
  - destruct Hst as [|[[[a b] t] u] [[[a' b'] t'] u'] rest rest' [Hp [Ht Hu]] Hrest]; [constructor; auto|].
    simpl in Hp, Ht, Hu. injection Hp as <- <-. subst u'. cbn [knn_loop].
    eapply bind_rel; [apply get_distance_rel, H|]. intros v v' Hv.
    eapply bind_rel; [apply get_point_rel, H|]. intros p p' Hp.
    eapply bind_rel; [apply is_terminal_rel, H|]. intros tm ? <-.
    destruct tm.
    + eapply bind_rel; [apply get_points_rel, H|]. intros xs xs' Hxs.
      eapply bind_rel; [apply for_each_rel with (R := RT) (Q := RP); [exact Hxs|exact Hs|]|].
      * intros x x' w w' Hx Hw. eapply bind_rel; [apply process_rel; eauto|]. intros r r' [_ Hr]. constructor. exact Hr.
      * intros s1 s1' H1. apply IH; auto.
    + destruct u.
      * cbv zeta. eapply bind_rel; [apply process_rel; eauto|]. intros [d s1] [d' s1'] [Hd H1]. simpl in Hd, H1.
        rewrite (Hleb _ _ _ _ Hd Hv). destruct (leb' d' v'); apply IH; auto;
          (constructor; [split; [reflexivity|split; [exact Hzero|reflexivity]]|]);
          (constructor; [split; [reflexivity|split; [apply Hgap; auto|reflexivity]]|exact Hrest]).
      * destruct Hs as [Hs1 Hs2].
        assert (E : match snd s with None => true | Some r => ltb t r end
                  = match snd s' with None => true | Some r => ltb' t' r end).
        { destruct Hs2; [reflexivity|]. apply Hltb; auto. }
        rewrite E. destruct (match snd s' with None => true | Some r => ltb' t' r end); apply IH; auto; try (split; auto).
        constructor; [split; [reflexivity|split; [exact Hzero|reflexivity]]|exact Hrest].
Qed.

Lemma knn_flat_rel k q q' st st' : RT q q' -> RS st st' ->
  res_rel (Forall2 RT) (knn_flat metric leb ltb gap zero X st q k) (knn_flat metric' leb' ltb' gap' zero' X' st' q' k).
Proof.
  intros Hq H. unfold knn_flat. rewrite HXl.
  eapply bind_rel.
  - apply knn_loop_rel; [exact Hq| |exact H|].
    + constructor; [split; [reflexivity|split; [exact Hzero|reflexivity]]|constructor].
    + split; constructor.
  - intros s s' [Hs _]. eapply bind_rel; [apply get_items_rel, Hs|]. intros r r' [Hr _].
    eapply bind_rel; [apply get_items_rel, Hr|]. intros r2 r2' [_ Hr2]. constructor. exact Hr2.
Qed.

(** *** hierarchical tree *)
Inductive tree_rel : @htree T D -> @htree T' D' -> Prop :=
| tr_leaf : forall s e, tree_rel (HLeaf s e) (HLeaf s e)
| tr_node : forall r r' c c' t1 t1' t2 t2', RD r r' -> RT c c' -> tree_rel t1 t1' -> tree_rel t2 t2' ->
    tree_rel (HNode r c t1 t2) (HNode r' c' t1' t2').

Lemma build_rec_rel n : forall s e c st st', RS st st' ->
  res_rel (prod_rel tree_rel (prod_rel eq RS)) (build_rec metric leb ltb zero par X n s e c st)
    (build_rec metric' leb' ltb' zero' par' X' n s e c st').
Proof.
  induction n as [|n IH]; intros s e c st st' H; cbn [build_rec]; [constructor|].
  destruct Hpar as [Hc [Hl _]]. rewrite Hc. destruct (e - s <=? leaf_capacity par').
  - constructor. split; [constructor|split; auto].
  - cbv zeta. eapply bind_rel; [apply update_hier_rel, H|]. intros [c1 s1] [c1' s1'] [Hc1 H1]. simpl in Hc1, H1. subst c1'.
    eapply bind_rel; [apply get_point_rel, H1|]. intros p p' Hp.
    eapply bind_rel; [apply (quickselect_rel RD ltb ltb' Hltb), H1|]. intros s2 s2' H2.
    eapply bind_rel; [apply get_distance_rel, H2|]. intros r r' Hr.
    eapply bind_rel; [apply set_distance_rel; eauto|]. intros s3 s3' H3.
    rewrite (Hleb _ _ _ _ Hr Hl). destruct (leb' r' (leaf_radius par')).
    + constructor. split; [constructor; auto; constructor|split; auto].
    + eapply bind_rel; [apply IH, H3|]. intros [l [c2 s4]] [l' [c2' s4']] [Hl1 [Hc2 H4]]. simpl in Hl1, Hc2, H4. subst c2'.
      eapply bind_rel; [apply IH, H4|]. intros [m [c3 s5]] [m' [c3' s5']] [Hm [Hc3 H5]]. simpl in Hm, Hc3, H5. subst c3'.
      constructor. split; [constructor; auto|split; auto].
Qed.

Lemma build_hier_rel : res_rel (prod_rel tree_rel RS) (build_hier metric leb ltb zero par X) (build_hier metric' leb' ltb' zero' par' X').
Proof.
  unfold build_hier. cbv zeta. rewrite HXl.
  assert (H : RS (mkq (repeat zero (length X')) (Some (seq 0 (length X'))) None)
                 (mkq (repeat zero' (length X')) (Some (seq 0 (length X'))) None)).
  { split; [apply F2_repeat, Hzero|split; reflexivity]. }
  destruct (0 <? length X'); [|constructor; split; [constructor|exact H]].
  eapply bind_rel; [apply build_rec_rel, H|]. intros r r' [Hr [_ Hr2]]. constructor. split; auto.
Qed.

Lemma ball_rec_rel q q' eps eps' b st st' : RT q q' -> RD eps eps' -> RS st st' ->
  forall t t' r r', tree_rel t t' -> Forall2 RT r r' ->
  res_rel (Forall2 RT) (ball_rec metric leb ltb gap X st q eps b t r) (ball_rec metric' leb' ltb' gap' X' st' q' eps' b t' r').
Proof.
  intros Hq He H t t' r r' Ht. revert r r'.
  induction Ht as [s e|v v' p p' t1 t1' t2 t2' Hv Hp H1 IH1 H2 IH2]; intros r r' Hr; cbn [ball_rec].
  - eapply bind_rel; [apply get_points_rel, H|]. intros xs xs' Hxs. constructor. apply ball_leaf_rel; auto.
  - cbv zeta. assert (Hd := Hmetric _ _ _ _ Hp Hq).
    rewrite (inside_rel _ _ b _ _ He Hd), (Hleb _ _ _ _ Hd Hv), (Hleb _ _ _ _ (Hgap _ _ _ _ Hd Hv) He).
    assert (Hr1 : Forall2 RT (if inside leb' ltb' eps' b (metric' p' q') then r ++ [p] else r)
                             (if inside leb' ltb' eps' b (metric' p' q') then r' ++ [p'] else r')).
    { destruct (inside leb' ltb' eps' b (metric' p' q')); [apply F2_app|]; auto. }
    destruct (leb' (metric' p' q') v').
    + eapply bind_rel; [apply IH1, Hr1|]. intros a a' Ha.
      destruct (leb' (gap' (metric' p' q') v') eps'); [apply IH2, Ha|constructor; exact Ha].
    + eapply bind_rel; [apply IH2, Hr1|]. intros a a' Ha.
      destruct (leb' (gap' (metric' p' q') v') eps'); [apply IH1, Ha|constructor; exact Ha].
Qed.

Lemma get_radius_rel k h h' : RH h h' -> opt_rel RD (get_radius k h) (get_radius k h').
Proof.
  intro H. unfold get_radius. rewrite (F2_length _ _ _ H). destruct (length h' <? k); [constructor|].
  destruct (heap_top_rel RD RT h h' H) as [|[a b] [a' b'] [Ha _]]; constructor. exact Ha.
Qed.

Lemma knn_offer_rel k d d' x x' h h' : RD d d' -> RT x x' -> RH h h' ->
  res_rel RH (knn_offer ltb k d x h) (knn_offer ltb' k d' x' h').
Proof.
  intros Hd Hx H. unfold knn_offer.
  assert (E : match get_radius k h with None => true | Some r => ltb d r end
            = match get_radius k h' with None => true | Some r => ltb' d' r end).
  { destruct (get_radius_rel k h h' H); [reflexivity|]. apply Hltb; auto. }
  rewrite E. destruct (match get_radius k h' with None => true | Some r => ltb' d' r end); [|constructor; auto].
  unfold knn_add. eapply bind_rel; [apply (heap_add_rel RD ltb ltb' Hltb RT); eauto|]. intros g g' Hg.
  rewrite (F2_length _ _ _ Hg). destruct (k <? length g'); [|constructor; auto].
  eapply bind_rel; [apply (heap_pop_rel RD ltb ltb' Hltb RT), Hg|]. intros r r' [_ Hr]. constructor. exact Hr.
Qed.

Lemma knn_rec_rel k q q' st st' : RT q q' -> RS st st' -> forall t t' h h', tree_rel t t' -> RH h h' ->
  res_rel RH (knn_rec metric leb ltb gap X st k q t h) (knn_rec metric' leb' ltb' gap' X' st' k q' t' h').
Proof.
  intros Hq H t t' h h' Ht. revert h h'.
  induction Ht as [s e|v v' p p' t1 t1' t2 t2' Hv Hp H1 IH1 H2 IH2]; intros h h' Hh; cbn [knn_rec].
  - eapply bind_rel; [apply get_points_rel, H|]. intros xs xs' Hxs.
    apply for_each_rel with (R := RT); auto. intros x x' s0 s0' Hx Hs. apply knn_offer_rel; auto.
  - cbv zeta. assert (Hd := Hmetric _ _ _ _ Hp Hq).
    eapply bind_rel; [apply knn_offer_rel; eauto|]. intros h1 h1' Hh1. rewrite (Hleb _ _ _ _ Hd Hv).
    assert (N : forall g g', RH g g' ->
      match get_radius k g with None => true | Some rad => leb (gap (metric p q) v) rad end =
      match get_radius k g' with None => true | Some rad => leb' (gap' (metric' p' q') v') rad end).
    { intros g g' Hg. destruct (get_radius_rel k g g' Hg); [reflexivity|]. apply Hleb; auto. }
    destruct (leb' (metric' p' q') v').
    + eapply bind_rel; [apply IH1, Hh1|]. intros a a' Ha. rewrite (N _ _ Ha).
      destruct (match get_radius k a' with None => true | Some rad => leb' (gap' (metric' p' q') v') rad end);
        [apply IH2, Ha|constructor; exact Ha].
    + eapply bind_rel; [apply IH2, Hh1|]. intros a a' Ha. rewrite (N _ _ Ha).
      destruct (match get_radius k a' with None => true | Some rad => leb' (gap' (metric' p' q') v') rad end);
        [apply IH1, Ha|constructor; exact Ha].
Qed.

Lemma knn_hier_rel k q q' t t' st st' : RT q q' -> tree_rel t t' -> RS st st' ->
  res_rel (Forall2 RT) (knn_hier metric leb ltb gap X t st q k) (knn_hier metric' leb' ltb' gap' X' t' st' q' k).
Proof.
  intros Hq Ht H. unfold knn_hier. eapply bind_rel; [apply knn_rec_rel; eauto|]. intros h h' Hh.
  eapply bind_rel; [apply get_items_rel, Hh|]. intros r r' [_ Hr]. constructor. exact Hr.
Qed.
End Tree.

(** *** The facade *)
Section Facade.
Context {T T' D D' : Type}.
Variable RT : T -> T' -> Prop.
Variable RD : D -> D' -> Prop.
Variables (metric : T -> T -> D) (metric' : T' -> T' -> D').
Variables (leb ltb : D -> D -> bool) (leb' ltb' : D' -> D' -> bool).
Variables (gap : D -> D -> D) (gap' : D' -> D' -> D').
Variables (zero : D) (zero' : D').
Hypothesis Hmetric : forall x x' y y', RT x x' -> RT y y' -> RD (metric x y) (metric' x' y').
Hypothesis Hleb : forall a a' b b', RD a a' -> RD b b' -> leb a b = leb' a' b'.
Hypothesis Hltb : forall a a' b b', RD a a' -> RD b b' -> ltb a b = ltb' a' b'.
Hypothesis Hgap : forall a a' b b', RD a a' -> RD b b' -> RD (gap a b) (gap' a' b').
Hypothesis Hzero : RD zero zero'.

Inductive vpt_rel : vpt T D -> vpt T' D' -> Prop :=
| vr_flat : forall X X' s s', Forall2 RT X X' -> qs_rel RD s s' -> vpt_rel (FlatT X s) (FlatT X' s')
| vr_hier : forall X X' t t' s s', Forall2 RT X X' -> tree_rel RT RD t t' -> qs_rel RD s s' ->
    vpt_rel (HierT X t s) (HierT X' t' s').

Lemma vptree_rel kind par par' X X' : par_rel RD par par' -> Forall2 RT X X' ->
  res_rel vpt_rel (vptree metric leb ltb zero kind par X) (vptree metric' leb' ltb' zero' kind par' X').
Proof.
  intros Hp HX. destruct kind; simpl; [| |constructor].
  - eapply bind_rel; [eapply (build_flat_rel RT RD); eauto|]. intros s s' Hs. constructor. constructor; auto.
  - eapply bind_rel; [eapply (build_hier_rel RT RD); eauto|]. intros r r' [Hr Hs]. constructor. constructor; auto.
Qed.

Lemma ball_search_rel t t' q q' eps eps' b : vpt_rel t t' -> RT q q' -> RD eps eps' ->
  res_rel (Forall2 RT) (ball_search metric leb ltb gap t q eps b) (ball_search metric' leb' ltb' gap' t' q' eps' b).
Proof.
  intros Ht Hq He. destruct Ht; simpl.
  - eapply ball_flat_rel; eauto.
  - eapply ball_rec_rel; eauto.
Qed.

Lemma knn_search_rel t t' q q' k : vpt_rel t t' -> RT q q' ->
  res_rel (Forall2 RT) (knn_search metric leb ltb gap zero t q k) (knn_search metric' leb' ltb' gap' zero' t' q' k).
Proof.
  intros Ht Hq. destruct Ht; simpl.
  - eapply knn_flat_rel; eauto.
  - eapply knn_hier_rel; eauto.
Qed.
End Facade.

(** *** Covers and the net *)
Lemma net_loop_rel {S S'} (RS : S -> S' -> Prop) search search' : 
  (forall x x', RS x x' -> search x = search' x') -> forall X X' i cov, Forall2 RS X X' ->
  net_loop search i X cov = net_loop search' i X' cov.
Proof.
  intros H X X' i cov HX. revert i cov. induction HX as [|x x' l l' Hx Hl IH]; intros i cov; simpl; [reflexivity|].
  rewrite (H _ _ Hx), IH. destruct (existsb (Nat.eqb i) cov); [reflexivity|].
  destruct (search' x') as [ids|]; [|reflexivity]. rewrite IH. reflexivity.
Qed.

Section Covers.
Context {T T' D D' : Type}.
Variable RT : T -> T' -> Prop.
Variable RD : D -> D' -> Prop.
Variables (metric : T -> T -> D) (metric' : T' -> T' -> D').
Variables (leb ltb : D -> D -> bool) (leb' ltb' : D' -> D' -> bool).
Variables (gap : D -> D -> D) (gap' : D' -> D' -> D').
Variables (zero : D) (zero' : D').
Hypothesis Hmetric : forall x x' y y', RT x x' -> RT y y' -> RD (metric x y) (metric' x' y').
Hypothesis Hleb : forall a a' b b', RD a a' -> RD b b' -> leb a b = leb' a' b'.
Hypothesis Hltb : forall a a' b b', RD a a' -> RD b b' -> ltb a b = ltb' a' b'.
Hypothesis Hgap : forall a a' b b', RD a a' -> RD b b' -> RD (gap a b) (gap' a' b').
Hypothesis Hzero : RD zero zero'.
Notation RZ := (@prod_rel Z T Z T' eq RT).

Lemma tree_metric_rel x x' y y' : RZ x x' -> RZ y y' -> RD (tree_metric metric x y) (tree_metric metric' x' y').
Proof. intros [_ H] [_ H']. apply Hmetric; auto. Qed.

Lemma enumerate_rel X X' : Forall2 RT X X' -> Forall2 RZ (enumerate X) (enumerate X').
Proof.
  intro H. unfold enumerate. rewrite (F2_length _ _ _ H). rewrite <- (F2_length _ _ _ H). generalize 0.
  induction H; intro n; simpl; constructor; auto. split; auto.
Qed.

Lemma ids_of_rel l l' : Forall2 RZ l l' -> ids_of l = ids_of l'.
Proof.
  intro H. unfold ids_of. induction H as [|x x' l l' [Hx _] Hl IH]; simpl; congruence.
Qed.

Definition ball_rel (c : ball_cover D) (c' : ball_cover D') : Prop :=
  RD (bc_radius c) (bc_radius c') /\ bc_tree c = bc_tree c' /\ bc_leaf_capacity c = bc_leaf_capacity c' /\
  opt_rel RD (bc_leaf_radius c) (bc_leaf_radius c').
Definition knn_rel (c : knn_cover D) (c' : knn_cover D') : Prop :=
  kc_neighbors c = kc_neighbors c' /\ kc_tree c = kc_tree c' /\ kc_leaf_capacity c = kc_leaf_capacity c' /\
  RD (kc_leaf_radius c) (kc_leaf_radius c').

Lemma num_or_rel a a' b b' : opt_rel RD a a' -> RD b b' -> RD (num_or leb zero a b) (num_or leb' zero' a' b').
Proof.
  intros Ha Hb. destruct Ha; simpl; [exact Hb|]. rewrite (Hleb a b0 zero zero'), (Hleb zero zero' a b0); auto.
  destruct (leb' b0 zero' && leb' zero' b0); auto.
Qed.

Definition fun_rel (f : T -> res (list nat)) (f' : T' -> res (list nat)) : Prop := forall x x', RT x x' -> f x = f' x'.

Lemma ball_fit_rel c c' X X' : ball_rel c c' -> Forall2 RT X X' ->
  res_rel fun_rel (ball_fit leb ltb gap zero metric c X) (ball_fit leb' ltb' gap' zero' metric' c' X').
Proof.
  intros [H1 [H2 [H3 H4]]] HX. unfold ball_fit, ball_fit_tree. rewrite H2, H3.
  eapply bind_rel.
  - eapply (vptree_rel RZ RD); eauto using tree_metric_rel, enumerate_rel.
    repeat split; simpl; auto. apply num_or_rel; auto.
  - intros t t' Ht. constructor. intros x x' Hx. unfold ball_query. apply res_rel_eq.
    eapply bind_rel; [eapply (ball_search_rel RZ RD); eauto using tree_metric_rel; split; auto|].
    intros l l' Hl. constructor. apply ids_of_rel, Hl.
Qed.

Lemma knn_fit_rel c c' X X' : knn_rel c c' -> Forall2 RT X X' ->
  res_rel fun_rel (knn_fit leb ltb gap zero metric c X) (knn_fit leb' ltb' gap' zero' metric' c' X').
Proof.
  intros [H1 [H2 [H3 H4]]] HX. unfold knn_fit, knn_fit_tree. rewrite H2, H3, H1.
  eapply bind_rel.
  - eapply (vptree_rel RZ RD); eauto using tree_metric_rel, enumerate_rel. repeat split; simpl; auto.
  - intros t t' Ht. constructor. intros x x' Hx. unfold knn_query. rewrite H1. apply res_rel_eq.
    eapply bind_rel; [eapply (knn_search_rel RZ RD); eauto using tree_metric_rel; split; auto|].
    intros l l' Hl. constructor. apply ids_of_rel, Hl.
Qed.

Lemma proximity_net_rel fit fit' X X' : Forall2 RT X X' -> res_rel fun_rel (fit X) (fit' X') ->
  proximity_net fit X = proximity_net fit' X'.
Proof.
  intros HX H. unfold proximity_net. destruct H as [f f' H|]; [|reflexivity].
  eapply net_loop_rel; [exact H|exact HX].
Qed.

Lemma ball_apply_rel c c' X X' : ball_rel c c' -> Forall2 RT X X' ->
  ball_apply leb ltb gap zero metric c X = ball_apply leb' ltb' gap' zero' metric' c' X'.
Proof. intros. apply proximity_net_rel; auto using ball_fit_rel. Qed.

Lemma knn_apply_rel c c' X X' : knn_rel c c' -> Forall2 RT X X' ->
  knn_apply leb ltb gap zero metric c X = knn_apply leb' ltb' gap' zero' metric' c' X'.
Proof. intros. apply proximity_net_rel; auto using knn_fit_rel. Qed.
End Covers.
