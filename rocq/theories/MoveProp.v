(** Covers under changes of coordinates. *)
From Coq Require Import String Reals Lra.
From Verif Require Import Base BaseFacts ModelCore ModelVPTree ModelArith ModelMetrics ModelCover SpecMetric SpecCubical
  SpecMetrics MetricFacts MetricProp CubicalFacts Relate SpecMove.
Open Scope R_scope.
Open Scope list_scope.

Ltac rring := match goal with |- @eq _ ?a ?b => change (@eq R a b) end; ring.

(** ** Isometries and units *)

Lemma F2_weaken {A B} (P Q : A -> B -> Prop) l l' : (forall a b, P a b -> Q a b) -> Forall2 P l l' -> Forall2 Q l l'.
Proof. intros H F. induction F; constructor; auto. Qed.

Section Pairs.
Context {T T' : Type}.
Variables (X : list T) (X' : list T').
Definition same_place (x : T) (x' : T') : Prop := exists i, nth_error X i = Some x /\ nth_error X' i = Some x'.

Lemma places : length X = length X' -> Forall2 same_place X X'.
Proof.
  unfold same_place. revert X'. induction X as [|x Y IH]; intros [|x' Y'] E; try discriminate; constructor.
  - exists O. auto.
  - injection E as E. eapply F2_weaken; [|exact (IH Y' E)]. intros a b [i [A B]]. exists (S i). auto.
Qed.
End Pairs.

Lemma isometry_ball {T T' D} (leb ltb : D -> D -> bool) (gap : D -> D -> D) zero (d : T -> T -> D) (d' : T' -> T' -> D) c X X' :
  same_distances d d' X X' -> ball_apply leb ltb gap zero d' c X' = ball_apply leb ltb gap zero d c X.
Proof.
  intros [L H]. symmetry. apply (ball_apply_rel (same_place X X') eq); try (intros; subst; reflexivity).
  - intros x x' y y' [i [A B]] [j [C E]]. symmetry. eapply H; eauto.
  - repeat split; try reflexivity. destruct (bc_leaf_radius c); constructor. reflexivity.
  - apply places, L.
Qed.

Lemma isometry_knn {T T' D} (leb ltb : D -> D -> bool) (gap : D -> D -> D) zero (d : T -> T -> D) (d' : T' -> T' -> D) c X X' :
  same_distances d d' X X' -> knn_apply leb ltb gap zero d' c X' = knn_apply leb ltb gap zero d c X.
Proof.
  intros [L H]. symmetry. apply (knn_apply_rel (same_place X X') eq); try (intros; subst; reflexivity).
  - intros x x' y y' [i [A B]] [j [C E]]. symmetry. eapply H; eauto.
  - repeat split; reflexivity.
  - apply places, L.
Qed.

Section Scale.
Variable s : R.
Hypothesis Hs : 0 < s.
Definition times (a b : R) : Prop := b = s * a.
Lemma times_le a a' b b' : times a a' -> times b b' -> Rleb a b = Rleb a' b'.
Proof.
  intros -> ->. unfold Rleb. destruct (Rle_dec a b) as [H|H], (Rle_dec (s * a) (s * b)) as [K|K]; auto; exfalso.
  - apply K, Rmult_le_compat_l; lra.
  - apply H. apply Rmult_le_reg_l in K; lra.
Qed.
Lemma times_lt a a' b b' : times a a' -> times b b' -> Rltb a b = Rltb a' b'.
Proof.
  intros -> ->. unfold Rltb. destruct (Rlt_dec a b) as [H|H], (Rlt_dec (s * a) (s * b)) as [K|K]; auto; exfalso.
  - apply K, Rmult_lt_compat_l; lra.
  - apply H. apply Rmult_lt_reg_l in K; lra.
Qed.
Lemma times_gap a a' b b' : times a a' -> times b b' -> times (Rgap a b) (Rgap a' b').
Proof.
  intros -> ->. unfold times, Rgap. rewrite <- Rmult_minus_distr_l, Rabs_mult, (Rabs_pos_eq s) by lra. reflexivity.
Qed.
Lemma times_zero : times 0 0.
Proof. unfold times. ring. Qed.

Lemma scale_ball {T T'} (d : T -> T -> R) (d' : T' -> T' -> R) c X X' :
  scaled_distances s d d' X X' -> ball_apply Rleb Rltb Rgap 0 d' (ball_scaled s c) X' = ball_apply Rleb Rltb Rgap 0 d c X.
Proof.
  intros [L H]. symmetry. apply (ball_apply_rel (same_place X X') times); auto using times_le, times_lt, times_gap, times_zero.
  - intros x x' y y' [i [A B]] [j [C E]]. eapply H; eauto.
  - repeat split; try reflexivity. simpl. destruct (bc_leaf_radius c); constructor. reflexivity.
  - apply places, L.
Qed.

Lemma scale_knn {T T'} (d : T -> T -> R) (d' : T' -> T' -> R) c X X' :
  scaled_distances s d d' X X' -> knn_apply Rleb Rltb Rgap 0 d' (knn_scaled s c) X' = knn_apply Rleb Rltb Rgap 0 d c X.
Proof.
  intros [L H]. symmetry. apply (knn_apply_rel (same_place X X') times); auto using times_le, times_lt, times_gap, times_zero.
  - intros x x' y y' [i [A B]] [j [C E]]. eapply H; eauto.
  - repeat split; reflexivity.
  - apply places, L.
Qed.
End Scale.

(** ** The metrics of the library *)

Lemma moved_diff s : forall v x y, length x = length v -> length y = length v ->
  map2 (sub RA) (moved s v x) (moved s v y) = map (Rmult s) (map2 (sub RA) x y).
Proof.
  induction v as [|a v IH]; intros [|b x] [|c y] Hx Hy; try discriminate; [reflexivity|].
  injection Hx as Hx. injection Hy as Hy. cbn [moved map2 map]. f_equal; [|apply IH; assumption].
  simpl. change (s * b + a - (s * c + a) = s * (b - c)). ring.
Qed.

Section Norms.
Variable s : R.
Hypothesis Hs : 0 < s.


Lemma abs_times a : abs_n RA (s * a) = s * abs_n RA a.
Proof. rewrite !abs_n_R, Rabs_mult, (Rabs_pos_eq s) by lra. reflexivity. Qed.

Lemma sum_scale k g l : (forall a, g (s * a) = k * g a) -> sum_n RA (map g (map (Rmult s) l)) = k * sum_n RA (map g l).
Proof.
  intro H. unfold sum_n. cbn [add RA]. change (zero RA) with 0. rewrite !fold_left_Rplus, !Rplus_0_l, map_map.
  induction l as [|a l IH]; simpl; [rring|]. rewrite H, IH. rring.
Qed.

Lemma norm2_scale v : norm2 RA sqrt (map (Rmult s) v) = s * norm2 RA sqrt v.
Proof.
  unfold norm2. rewrite (sum_scale (s * s)); [|intro a; change (s * a * (s * a) = s * s * (a * a)); rring].
  rewrite sqrt_mult_alt by (apply Rle_0_sqr). rewrite sqrt_square by lra. reflexivity.
Qed.

Lemma eq0_scale a : eq_b RA (s * a) (zero RA) = eq_b RA a (zero RA).
Proof.
  change (zero RA) with 0. destruct (eq_b RA a 0) eqn:E.
  - apply RA_eqb in E. apply RA_eqb. rewrite E. rring.
  - apply RA_eqb_false in E. apply RA_eqb_false. intro H. apply Rmult_integral in H. destruct H; [lra|auto].
Qed.

Lemma sum_pw_nonneg p l : 0 <= sum_n RA (map (fun a => power RA (abs_n RA a) p) l).
Proof.
  unfold sum_n. cbn [add RA]. change (zero RA) with 0. rewrite fold_left_Rplus, Rplus_0_l.
  induction l as [|a l IH]; simpl; [apply Rle_refl|]. rewrite power_R. apply Rplus_le_le_0_compat; [apply pw_nonneg|exact IH].
Qed.

Lemma power_norm_scale p v : p <> 0 -> power_norm RA p (map (Rmult s) v) = s * power_norm RA p v.
Proof.
  intro Hp. unfold power_norm.
  replace (existsb (fun a => eq_b RA a (zero RA)) (map (Rmult s) v)) with (existsb (fun a => eq_b RA a (zero RA)) v).
  2:{ induction v as [|a v IH]; simpl; [reflexivity|]. f_equal; [symmetry; apply eq0_scale|exact IH]. }
  destruct (lt_b RA p (zero RA) && existsb (fun a => eq_b RA a (zero RA)) v); [change (zero RA) with 0; rring|].
  rewrite (sum_scale (pw s p)).
  - rewrite !power_R. rewrite pw_mult; [|apply pw_nonneg|apply sum_pw_nonneg].
    change (div RA (ofz RA 1) p) with (1 / p). rewrite pw_inv by (auto; lra). reflexivity.
  - intro a. rewrite abs_times, !power_R. apply pw_mult; [lra|]. rewrite abs_n_R. apply Rabs_pos.
Qed.

Lemma max_scale (u w : R) : max_n RA (s * u) (s * w) = s * max_n RA u w.
Proof.
  rewrite !max_R. change (@eq R (Rmax (s * u) (s * w)) (s * Rmax u w)). unfold Rmax.
  destruct (Rle_dec (s * u) (s * w)) as [H|H], (Rle_dec u w) as [K|K]; try reflexivity; exfalso.
  - apply K. apply Rmult_le_reg_l in H; lra.
  - apply H. apply Rmult_le_compat_l; lra.
Qed.

Lemma min_scale (u w : R) : min_n RA (s * u) (s * w) = s * min_n RA u w.
Proof.
  rewrite !min_R. change (@eq R (Rmin (s * u) (s * w)) (s * Rmin u w)). unfold Rmin.
  destruct (Rle_dec (s * u) (s * w)) as [H|H], (Rle_dec u w) as [K|K]; try reflexivity; exfalso.
  - apply K. apply Rmult_le_reg_l in H; lra.
  - apply H. apply Rmult_le_compat_l; lra.
Qed.

Lemma norm_scale o v : o <> Ord (A:=RA) 0 -> norm RA sqrt o (map (Rmult s) v) = s * norm RA sqrt o v.
Proof.
  intro Ho. destruct o as [p| |]; simpl.
  - destruct (eq_b RA p 2) eqn:E2; [apply norm2_scale|].
    destruct (eq_b RA p 0) eqn:E0; [apply RA_eqb in E0; exfalso; apply Ho; rewrite E0; reflexivity|]. apply RA_eqb_false in E0.
    destruct (eq_b RA p 1) eqn:E1; [apply sum_scale, abs_times|]. apply power_norm_scale, E0.
  - rewrite map_map. induction v as [|a v IH]; simpl; [change (zero RA) with 0; rring|].
    rewrite abs_times. rewrite IH. exact (max_scale _ _).
  - destruct v as [|a v]; simpl; [change (zero RA) with 0; rring|]. rewrite abs_times, map_map.
    generalize (abs_n RA a) as u. induction v as [|b v IH]; intro u; simpl; [reflexivity|].
    rewrite abs_times. replace (min_n RA (s * u) (s * abs_n RA b)) with (s * min_n RA u (abs_n RA b)); [apply IH|].
    symmetry. exact (min_scale _ _).
Qed.
End Norms.

(** What [get_metric] gives for a name other than "cosine" is a norm of the difference. *)
Lemma named_is_norm name kw f : get_metric RA sqrt (Name name) kw = Ok f -> name <> "cosine"%string ->
  exists o, (forall x y, f x y = Ok (norm RA sqrt o (map2 (sub RA) x y))) /\
    (o = Ord (A:=RA) 0 -> kw = [("p"%string, OrderValue (Ord (A:=RA) 0))]).
Proof.
  intros E C. cbn [get_metric] in E.
  assert (N : forall v, norm RA sqrt (Ord (A:=RA) 2) v = norm2 RA sqrt v).
  { intro v. cbn [norm]. change (ofz RA 2) with 2. rewrite (proj2 (RA_eqb 2 2) eq_refl). reflexivity. }
  assert (Z21 : Ord (A:=RA) 2 <> Ord (A:=RA) 0) by (intros [= Q]; lra).
  assert (Z11 : Ord (A:=RA) 1 <> Ord (A:=RA) 0) by (intros [= Q]; lra).
  destruct (String.eqb name "euclidean").
  { destruct kw; [|discriminate]. injection E as <-. exists (Ord (A:=RA) 2). split; [|intro Q; destruct (Z21 Q)].
    intros x y. unfold total_fn, euclidean. rewrite N. reflexivity. }
  destruct (String.eqb name "manhattan").
  { destruct kw; [|discriminate]. injection E as <-. exists (Ord (A:=RA) 1). split; [|intro Q; destruct (Z11 Q)]. reflexivity. }
  destruct (String.eqb name "minkowski").
  { unfold call_minkowski in E. destruct kw as [|[k [o|]] [|]]; try discriminate.
    destruct (String.eqb k "p") eqn:Ek; [|discriminate]. apply String.eqb_eq in Ek. subst k. injection E as <-.
    unfold minkowski. destruct o as [p| |].
    - destruct (eq_b RA p (ofz RA 1)) eqn:E1; [|destruct (eq_b RA p (ofz RA 2)) eqn:E2].
      + exists (Ord (A:=RA) 1). split; [reflexivity|]. intro Q; destruct (Z11 Q).
      + exists (Ord (A:=RA) 2). split; [|intro Q; destruct (Z21 Q)].
        intros x y. unfold total_fn, euclidean. rewrite N. reflexivity.
      + exists (Ord (A:=RA) p). split; [reflexivity|]. intro Q. injection Q as ->. reflexivity.
    - exists (PosInf (A:=RA)). split; [reflexivity|discriminate].
    - exists (PosInf (A:=RA)). split; [reflexivity|discriminate]. }
  destruct (String.eqb name "chebyshev").
  { destruct kw; [|discriminate]. injection E as <-. exists (PosInf (A:=RA)). split; [reflexivity|discriminate]. }
  destruct (String.eqb name "cosine") eqn:Ec; [apply String.eqb_eq in Ec; contradiction|discriminate].
Qed.

Lemma named_moved name kw f : get_metric RA sqrt (Name name) kw = Ok f -> name <> "cosine"%string ->
  exists d, (forall x y, f x y = Ok (d x y)) /\
    (forall v x y, length x = length v -> length y = length v -> d (moved 1 v x) (moved 1 v y) = d x y) /\
    (kw <> [("p"%string, OrderValue (Ord (A:=RA) 0))] -> forall s v x y, 0 < s -> length x = length v -> length y = length v ->
       d (moved s v x) (moved s v y) = s * d x y).
Proof.
  intros E C. destruct (named_is_norm name kw f E C) as [o [N K]].
  exists (fun x y => norm RA sqrt o (map2 (sub RA) x y)). split; [exact N|]. split.
  - intros v x y Hx Hy. rewrite moved_diff by assumption. f_equal. rewrite (map_ext (Rmult 1) id); [apply map_id|].
    intro a. unfold id. ring.
  - intros Q s v x y Hs Hx Hy. rewrite moved_diff by assumption. apply norm_scale; [exact Hs|]. intro Z. apply Q, K, Z.
Qed.

(** ** Cubical covers *)

Section Cubes.
Variable m : nat.
Variable n : Z.
Variable eps : R.
Variables X X' : list (list R).
Variables lo hi lo' hi' : nat -> R.
Hypothesis Hn : (1 <= n)%Z.
Hypothesis He : 0 <= eps.
Hypothesis Hrows : Forall (fun x => length x = m) X.
Hypothesis Hrows' : Forall (fun x => length x = m) X'.
Hypothesis HX : X <> [].
Hypothesis Hlen : length X = length X'.
Hypothesis Hb : column_bounds m X lo hi.
Hypothesis Hb' : column_bounds m X' lo' hi'.
Hypothesis Hpos : forall i x x' j, nth_error X i = Some x -> nth_error X' i = Some x' -> (j < m)%nat ->
  grid_pos n eps lo' hi' j (coord x' j) = grid_pos n eps lo hi j (coord x j).
Notation b := (grid_bounds m n eps lo hi).
Notation b' := (grid_bounds m n eps lo' hi').

Lemma HX' : X' <> [].
Proof. intro E. rewrite E in Hlen. apply HX, length_zero_iff_nil, Hlen. Qed.

Definition same_pos (x x' : list R) : Prop :=
  length x = m /\ length x' = m /\ gamma_n RA b' x' = gamma_n RA b x.

Lemma rows_pos : Forall2 same_pos X X'.
Proof.
  eapply F2_weaken; [|apply places, Hlen]. intros x x' [i [A B]].
  assert (Lx : length x = m) by (rewrite Forall_forall in Hrows; apply Hrows; eapply nth_error_In, A).
  assert (Lx' : length x' = m) by (rewrite Forall_forall in Hrows'; apply Hrows'; eapply nth_error_In, B).
  split; [exact Lx|]. split; [exact Lx'|]. rewrite !gamma_pos by assumption.
  apply map_seq_ext. intros j Hj. eapply Hpos; eauto.
Qed.

Lemma offset_pos x x' : same_pos x x' -> offset RA b' x' = offset RA b x.
Proof. intros [_ [_ E]]. unfold offset. rewrite E. reflexivity. Qed.

Lemma phi_pos x x' : same_pos x x' -> same_pos (phi RA b x) (phi RA b' x').
Proof.
  intros S. pose proof (offset_pos x x' S) as O. destruct S as [L [L' E]].
  split; [eapply phi_length; eassumption|]. split; [eapply phi_length; eassumption|].
  rewrite !gamma_phi by assumption. rewrite !offset_cells in O by assumption.
  apply map_seq_ext. intros j Hj. rewrite (map_seq_inj m _ _ O j Hj). reflexivity.
Qed.

Definition state_rel (s s' : bounds RA * (list R -> res (list nat))) : Prop :=
  fst s = b /\ fst s' = b' /\ forall x x', same_pos x x' -> snd s x = snd s' x'.

Lemma query_rel s s' x x' : state_rel s s' -> same_pos x x' -> cubical_query RA s x = cubical_query RA s' x'.
Proof.
  destruct s as [u f], s' as [u' f']. intros [E [E' F]] P. cbn [fst snd] in *. subst u u'. unfold cubical_query. cbn [fst snd].
  apply F, phi_pos, P.
Qed.

Lemma fit_state_rel c : cu_n_intervals RA c = n -> res_rel state_rel (cubical_fit_state RA eps c X) (cubical_fit_state RA eps c X').
Proof.
  intro Ec. unfold cubical_fit_state. rewrite Ec. rewrite (get_bounds_ok m n eps X lo hi) by assumption.
  rewrite (get_bounds_ok m n eps X' lo' hi') by (assumption || exact HX').
  assert (Eh : length (hd [] X) = length (hd [] X')).
  { pose proof HX' as H'. destruct X as [|x Y]; [congruence|]. destruct X' as [|x' Y']; [congruence|].
    inversion Hrows; inversion Hrows'; simpl; congruence. }
  eapply bind_rel with (R := eq).
  { apply res_rel_eq. destruct (cu_overlap_frac RA c); [reflexivity|]. apply f_equal2; [exact Eh|reflexivity]. }
  intros ov ? <-. destruct (le_b RA ov (zero RA)); [constructor|]. cbn [bind].
  destruct (eq_b RA (sub RA (ofz RA 2) (mul RA (ofz RA 2) ov)) (zero RA)); [constructor|].
  eapply bind_rel.
  - apply (ball_fit_rel same_pos eq); try (intros; subst; reflexivity).
    + intros x x' y y' [_ [_ E]] [_ [_ E']]. unfold pullback. rewrite E, E'. reflexivity.
    + repeat split; try reflexivity. simpl. destruct (cu_leaf_radius RA c); constructor. reflexivity.
    + apply rows_pos.
  - intros f f' F. constructor. split; [reflexivity|]. split; [reflexivity|]. exact F.
Qed.

Lemma hits_rel (lm lm' : list (list Z * vec RA)) k :
  Forall2 (fun p p' => fst p = fst p' /\ same_pos (snd p) (snd p')) lm lm' ->
  existsb (fun p => cell_eqb (fst p) k) lm = existsb (fun p => cell_eqb (fst p) k) lm'.
Proof. intro L. induction L as [|p p' lm lm' [E _] L IL]; simpl; [reflexivity|]. apply f_equal2; [exact (f_equal (fun z => cell_eqb z k) E)|exact IL]. Qed.

Lemma landmarks_rel Y Y' : Forall2 same_pos Y Y' ->
  Forall2 (fun p p' => fst p = fst p' /\ same_pos (snd p) (snd p')) (landmarks RA b Y) (landmarks RA b' Y').
Proof.
  intro F. unfold landmarks.
  assert (G : forall lm lm', Forall2 (fun p p' => fst p = fst p' /\ same_pos (snd p) (snd p')) lm lm' ->
    Forall2 (fun p p' => fst p = fst p' /\ same_pos (snd p) (snd p'))
      (fold_left (fun lm x => if existsb (fun p => cell_eqb (fst p) (offset RA b x)) lm then lm else (offset RA b x, x) :: lm) Y lm)
      (fold_left (fun lm x => if existsb (fun p => cell_eqb (fst p) (offset RA b' x)) lm then lm else (offset RA b' x, x) :: lm) Y' lm')).
  2:{ apply G. constructor. }
  induction F as [|y y' Y Y' H F IH]; intros lm lm' L; simpl; [exact L|]. apply IH.
  rewrite (offset_pos y y' H).
  rewrite (hits_rel lm lm' (offset RA b y) L).
  match goal with |- context [existsb ?g ?l] => destruct (existsb g l) end; [exact L|]. constructor; [split; [reflexivity|exact H]|exact L].
Qed.

Lemma landmark_loop_rel' (f f' : list R -> res (list nat)) lm lm' : (forall x x', same_pos x x' -> f x = f' x') ->
  Forall2 (fun p p' : list Z * list R => fst p = fst p' /\ same_pos (snd p) (snd p')) lm lm' ->
  landmark_loop RA f lm = landmark_loop RA f' lm'.
Proof.
  intros H F. induction F as [|[k x] [k' x'] lm lm' [_ P] F IH]; simpl; [reflexivity|].
  simpl in P. rewrite (H x x' P), IH. reflexivity.
Qed.

Lemma cubical_pos alg c : cu_n_intervals RA c = n -> cubical_apply RA eps alg c X' = cubical_apply RA eps alg c X.
Proof.
  intro Ec. pose proof (fit_state_rel c Ec) as S. symmetry.
  assert (EX : forall A (u w : A), match X with [] => u | _ => w end = w) by (intros; destruct X; congruence).
  assert (EX' : forall A (u w : A), match X' with [] => u | _ => w end = w) by (pose proof HX'; intros; destruct X'; congruence).
  destruct alg; simpl; [| |reflexivity].
  - unfold proximity_cubical_apply. apply (proximity_net_rel same_pos); [apply rows_pos|].
    unfold cubical_fit. rewrite EX, EX'. eapply bind_rel; [exact S|]. intros s s' H. constructor.
    intros x x' P. apply query_rel; assumption.
  - unfold standard_cubical_apply. rewrite EX, EX'. destruct S as [s s' H|]; [|reflexivity]. cbn [bind].
    apply landmark_loop_rel'.
    + intros x x' P. apply query_rel; assumption.
    + destruct s as [u f], s' as [u' f']. destruct H as [E [E' _]]. cbn [fst] in *. subst u u'. apply landmarks_rel, rows_pos.
Qed.
End Cubes.

(** Columns rescaled and shifted. *)
Lemma coord_rescaled ab x j : length x = length ab -> (j < length ab)%nat ->
  coord (rescaled ab x) j = fst (nth j ab (1, 0)) * coord x j + snd (nth j ab (1, 0)).
Proof.
  unfold coord, rescaled. revert x j. induction ab as [|p ab IH]; intros [|w x] [|j] L Hj; simpl in *; try lia; [reflexivity|].
  apply IH; lia.
Qed.

Lemma rescaled_length ab x : length x = length ab -> length (rescaled ab x) = length ab.
Proof.
  unfold rescaled. revert x. induction ab as [|p ab IH]; intros [|w x] L; simpl in *; try lia. rewrite IH; lia.
Qed.

Lemma cubical_rescaled eps ab X lo hi (c : cubical RA) alg : (1 <= cu_n_intervals RA c)%Z -> 0 <= eps ->
  Forall (fun x => length x = length ab) X -> column_bounds (length ab) X lo hi ->
  (forall j, (j < length ab)%nat -> let a := fst (nth j ab (1, 0)) in
     0 < a /\ (lo j = hi j \/ eps < hi j - lo j /\ eps < a * (hi j - lo j))) ->
  cubical_apply RA eps alg c (map (rescaled ab) X) = cubical_apply RA eps alg c X.
Proof.
  intros Hn He Hr Hb Ha. destruct X as [|x0 X0] eqn:EX; [destruct alg; reflexivity|]. rewrite <- EX in *.
  assert (NX : X <> []) by congruence. clear EX.
  set (A := fun j => fst (nth j ab (1, 0))) in *. set (B := fun j => snd (nth j ab (1, 0))).
  rewrite Forall_forall in Hr.
  assert (HbX : column_bounds (length ab) (map (rescaled ab) X) (fun j => A j * lo j + B j) (fun j => A j * hi j + B j)).
  { intros j Hj. destruct (Hb j Hj) as [[xl [Il El]] [[xh [Ih Eh]] K]]. destruct (Ha j Hj) as [Pa _].
    assert (Co : forall x, In x X -> coord (rescaled ab x) j = A j * coord x j + B j) by (intros; apply coord_rescaled; auto).
    split; [exists (rescaled ab xl)|split; [exists (rescaled ab xh)|]].
    - split; [apply in_map, Il|]. rewrite Co, El by exact Il. reflexivity.
    - split; [apply in_map, Ih|]. rewrite Co, Eh by exact Ih. reflexivity.
    - intros y Iy. apply in_map_iff in Iy. destruct Iy as [x [<- Ix]]. rewrite Co by exact Ix.
      destruct (K x Ix). split; apply Rplus_le_compat_r, Rmult_le_compat_l; fold (A j) in Pa; lra. }
  apply (cubical_pos (length ab) (cu_n_intervals RA c) eps X (map (rescaled ab) X) lo hi
           (fun j => A j * lo j + B j) (fun j => A j * hi j + B j)); auto.
  - apply Forall_forall. exact Hr.
  - apply Forall_forall. intros y Iy. apply in_map_iff in Iy. destruct Iy as [x [<- Ix]]. apply rescaled_length, Hr, Ix.
  - rewrite map_length. reflexivity.
  - intros i x x' j Nx Nx' Hj. rewrite nth_error_map, Nx in Nx'. injection Nx' as <-.
    assert (Ix : In x X) by (eapply nth_error_In, Nx). rewrite coord_rescaled by auto. fold (A j) (B j).
    destruct (Ha j Hj) as [Pa Hd]. fold (A j) in Pa, Hd. destruct (Hb j Hj) as [_ [_ K]]. specialize (K x Ix).
    unfold grid_pos.
    replace (A j * hi j + B j - (A j * lo j + B j)) with (A j * (hi j - lo j)) by ring.
    destruct Hd as [Hd|[Hd1 Hd2]].
    + rewrite Hd. replace (A j * (hi j - hi j)) with 0 by ring. replace (hi j - hi j) with 0 by ring.
      destruct (Rle_dec 0 eps); [|lra]. replace (coord x j) with (hi j) by lra. ring.
    + destruct (Rle_dec (A j * (hi j - lo j)) eps); [lra|]. destruct (Rle_dec (hi j - lo j) eps); [lra|].
      field. lra.
Qed.

(** ** Angles *)
Lemma total_scale s t (x y : list R) : total Rmult (map (Rmult s) x) (map (Rmult t) y) = s * t * total Rmult x y.
Proof. revert y. induction x as [|a x IH]; intros [|b y]; simpl; try ring. rewrite IH. ring. Qed.

Lemma nrm_scale s (x : list R) : 0 < s -> nrm (map (Rmult s) x) = s * nrm x.
Proof. intro Hs. rewrite <- !norm2_R. apply norm2_scale, Hs. Qed.

Lemma cosine_scale s t (x y : list R) : 0 < s -> 0 < t ->
  cosine RA sqrt (map (Rmult s) x) (map (Rmult t) y) = cosine RA sqrt x y.
Proof.
  intros Hs Ht. unfold cosine. rewrite !norm2_R, !dot_R, total_scale, !nrm_scale by assumption.
  change (mul RA) with Rmult. change (zero RA) with 0.
  replace (s * nrm x * (t * nrm y)) with (s * t * (nrm x * nrm y)) by ring.
  assert (P : 0 < s * t) by (apply Rmult_lt_0_compat; assumption).
  pose proof (eq0_scale (s * t) P (nrm x * nrm y)) as Z. change (zero RA) with 0 in Z. rewrite Z. clear Z.
  destruct (eq_b RA (nrm x * nrm y) 0) eqn:E; [reflexivity|]. apply RA_eqb_false in E.
  do 4 f_equal. change (div RA) with Rdiv.
  change (s * t * total Rmult x y / (s * t * (nrm x * nrm y)) = total Rmult x y / (nrm x * nrm y)).
  field. repeat split; try lra; intro Z; apply E; rewrite Z; rring.
Qed.
