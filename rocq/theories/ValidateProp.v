(** Facts about input validation. *)
From Verif Require Import Base BaseFacts ModelValidate SpecValidate.

Section Proofs.
Context {F O : Type}.
Variable is_nan : F -> bool.
Variable is_inf : F -> bool.
Variable to_float : O -> res F.
Notation validate := (@validate F O is_nan is_inf to_float).
Notation finite := (@finite F is_nan is_inf).
Notation holds_numbers := (@holds_numbers F O to_float).
Notation has_non_finite := (@has_non_finite F O is_nan is_inf).

Lemma size_zero (a : ndarray F O) : size a = 0 <-> empty a.
Proof.
  unfold size, empty. induction (a_shape a) as [|n s IH]; simpl; [split; [discriminate|tauto]|].
  rewrite Nat.eq_mul_0, IH. reflexivity.
Qed.

Lemma map_res_Forall2 {A B : Type} (f : A -> res B) l ys :
  map_res f l = Ok ys <-> Forall2 (fun x y => f x = Ok y) l ys.
Proof.
  revert ys. induction l as [|x l IH]; intros ys; simpl.
  - split; [intros [= <-]; constructor|intro H; inversion H; reflexivity].
  - split.
    + destruct (f x) as [y|e] eqn:E; simpl; [|discriminate]. destruct (map_res f l) as [zs|e] eqn:E2; simpl; [|discriminate].
      intros [= <-]. constructor; [exact E|]. apply IH. reflexivity.
    + intro H. inversion H as [|? y ? zs E H2]; subst. rewrite E. simpl. apply IH in H2. rewrite H2. reflexivity.
Qed.

Lemma convert_numbers (a b : ndarray F O) xs : a_entries b = ENum xs ->
  (convert to_float a = Ok b <-> holds_numbers a xs /\ b = mkarr (a_shape a) (ENum xs)).
Proof.
  intro Eb. unfold convert. destruct (a_entries a) as [zs|n|os|n] eqn:E.
  - split.
    + intros [= ->]. rewrite E in Eb. injection Eb as ->. split; [left; exact E|]. destruct b as [s e]. simpl in *. subst. reflexivity.
    + intros [[H|[os [H _]]] ->]; [|congruence]. rewrite H in E. injection E as ->. destruct a as [s e]; simpl in *. subst. reflexivity.
  - split; [intros [= ->]; congruence|]. intros [[H|[os [H _]]] _]; congruence.
  - split.
    + destruct (map_res to_float os) as [ys|e] eqn:M; simpl; [|discriminate]. intros [= <-]. simpl in Eb. injection Eb as ->.
      split; [|reflexivity]. right. exists os. split; [exact E|]. apply map_res_Forall2. exact M.
    + intros [[H|[os' [H H2]]] ->]; [congruence|]. rewrite H in E. injection E as ->.
      apply map_res_Forall2 in H2. rewrite H2. reflexivity.
  - split; [intros [= ->]; congruence|]. intros [[H|[os [H _]]] _]; congruence.
Qed.

Lemma not_finite_false (X y : ndarray F O) :
  not_finite is_nan is_inf X y = Ok false <->
  exists xs ys, a_entries X = ENum xs /\ a_entries y = ENum ys /\ Forall finite xs /\ Forall finite ys.
Proof.
  assert (EX : forall t (l : list F), existsb t l = false <-> Forall (fun x => t x = false) l).
  { intros t l. induction l as [|x l IH]; simpl; [split; auto|]. rewrite orb_false_iff, IH.
    split; [intros []; constructor; assumption|intro H; inversion H; auto]. }
  unfold not_finite, any. split.
  - destruct (a_entries X) as [xs| | |] eqn:Ex; simpl; try discriminate.
    destruct (existsb is_nan xs) eqn:A; simpl; [discriminate|]. destruct (existsb is_inf xs) eqn:B; simpl; [discriminate|].
    destruct (a_entries y) as [ys| | |] eqn:Ey; simpl; try discriminate.
    destruct (existsb is_nan ys) eqn:C; simpl; [discriminate|]. intros [= D].
    exists xs, ys. apply EX in A, B, C, D. rewrite Forall_forall in A, B, C, D.
    split; [reflexivity|]. split; [reflexivity|]. split; apply Forall_forall; intros x I; split; auto.
  - intros [xs [ys [-> [-> [A B]]]]]. simpl.
    rewrite (proj2 (EX is_nan xs)), (proj2 (EX is_inf xs)), (proj2 (EX is_nan ys)), (proj2 (EX is_inf ys)); try reflexivity;
      (eapply Forall_impl; [|eassumption]); intros a [? ?]; assumption.
Qed.

Theorem validate_accepts X y X' y' :
  validate X y = Ok (X', y') <->
  exists a b xs ys, in_sparse X = false /\ in_array X = Ok a /\ in_array y = Ok b /\
    ~ empty a /\ ~ empty b /\ length (a_shape a) <> 1 /\
    holds_numbers a xs /\ Forall finite xs /\ X' = mkarr (a_shape a) (ENum xs) /\
    holds_numbers b ys /\ Forall finite ys /\ y' = mkarr (a_shape b) (ENum ys).
Proof.
  unfold ModelValidate.validate. split.
  - destruct (in_sparse X) eqn:S; [discriminate|]. destruct (in_array X) as [a|e] eqn:A; cbn [bind]; [|discriminate].
    destruct (in_array y) as [b|e] eqn:B; cbn [bind]; [|discriminate].
    destruct (Nat.eqb_spec (size a) 0) as [|Sa]; [discriminate|]. destruct (Nat.eqb_spec (size b) 0) as [|Sb]; [discriminate|].
    destruct (Nat.eqb_spec (length (a_shape a)) 1) as [|Da]; [discriminate|].
    destruct (is_complex a || is_complex b); [discriminate|].
    destruct (convert to_float a) as [a2|e] eqn:Ca; cbn [bind]; [|discriminate].
    destruct (convert to_float b) as [b2|e] eqn:Cb; cbn [bind]; [|discriminate].
    destruct (not_finite is_nan is_inf a2 b2) as [[|]|e] eqn:Nf; cbn [bind]; try discriminate.
    intros [= <- <-]. apply not_finite_false in Nf as [xs [ys [Ex [Ey [Fx Fy]]]]].
    destruct (proj1 (convert_numbers _ _ _ Ex) Ca) as [Ha Qa]. destruct (proj1 (convert_numbers _ _ _ Ey) Cb) as [Hb Qb].
    exists a, b, xs, ys. rewrite size_zero in Sa, Sb. repeat split; assumption.
  - intros [a [b [xs [ys [Q1 [Q2 [Q3 [Ea [Eb [D [Ha [Fx [Q4 [Hb [Fy Q5]]]]]]]]]]]]]]]. rewrite Q1, Q2, Q3, Q4, Q5. cbn [bind].
    rewrite <- size_zero in Ea, Eb.
    destruct (Nat.eqb_spec (size a) 0); [contradiction|]. destruct (Nat.eqb_spec (size b) 0); [contradiction|].
    destruct (Nat.eqb_spec (length (a_shape a)) 1); [contradiction|].
    replace (is_complex a || is_complex b) with false.
    2: { symmetry. apply orb_false_iff. unfold is_complex. split.
         - destruct Ha as [->|[os [-> _]]]; reflexivity.
         - destruct Hb as [->|[os [-> _]]]; reflexivity. }
    rewrite (proj2 (convert_numbers a (mkarr (a_shape a) (ENum xs)) xs eq_refl)) by auto.
    rewrite (proj2 (convert_numbers b (mkarr (a_shape b) (ENum ys)) ys eq_refl)) by auto. cbn [bind].
    rewrite (proj2 (not_finite_false _ _)); [reflexivity|]. exists xs, ys. auto.
Qed.

Lemma not_finite_numbers (X y : ndarray F O) xs ys : a_entries X = ENum xs -> a_entries y = ENum ys ->
  not_finite is_nan is_inf X y = Ok true <-> has_non_finite X \/ has_non_finite y.
Proof.
  intros Ex Ey. unfold not_finite, any. rewrite Ex, Ey. cbn [bind].
  assert (H : forall a zs, a_entries a = ENum zs -> (has_non_finite a <-> existsb is_nan zs = true \/ existsb is_inf zs = true)).
  { intros a zs E. unfold SpecValidate.has_non_finite. rewrite E. rewrite !existsb_exists. split.
    - intros [l [x [[= <-] [I [N|N]]]]]; [left|right]; exists x; auto.
    - intros [[x [I N]]|[x [I N]]]; exists zs, x; auto. }
  rewrite (H X xs Ex), (H y ys Ey).
  destruct (existsb is_nan xs); [intuition|]. destruct (existsb is_inf xs); [intuition|].
  destruct (existsb is_nan ys); [intuition|]. destruct (existsb is_inf ys); [intuition|]. intuition discriminate.
Qed.

Lemma not_finite_ok (X y : ndarray F O) xs ys : a_entries X = ENum xs -> a_entries y = ENum ys ->
  exists b, not_finite is_nan is_inf X y = Ok b.
Proof.
  intros Ex Ey. unfold not_finite, any. rewrite Ex, Ey. cbn [bind].
  destruct (existsb is_nan xs); [eauto|]. destruct (existsb is_inf xs); [eauto|]. destruct (existsb is_nan ys); eauto.
Qed.

(** Numeric data: the reasons for a ValueError, and nothing else is raised. *)
Theorem validate_numeric X y a b :
  in_array X = Ok a -> in_array y = Ok b -> numeric a -> numeric b ->
  (validate X y = Err ValueError <->
     in_sparse X = true \/ empty a \/ empty b \/ length (a_shape a) = 1 \/ complex a \/ complex b \/
     has_non_finite a \/ has_non_finite b) /\
  (validate X y = Ok (a, b) \/ validate X y = Err ValueError).
Proof.
  intros A B Na Nb. unfold ModelValidate.validate. rewrite A, B. cbn [bind].
  destruct (in_sparse X); [split; [tauto|auto]|]. rewrite <- !size_zero.
  destruct (Nat.eqb_spec (size a) 0); [split; [tauto|auto]|]. destruct (Nat.eqb_spec (size b) 0); [split; [tauto|auto]|].
  destruct (Nat.eqb_spec (length (a_shape a)) 1); [split; [tauto|auto]|].
  destruct Na as [[xs Ex]|[k Ex]].
  2: { unfold is_complex. rewrite Ex. simpl. split; [|auto]. split; [|auto]. intros _. right. right. right. right. left. exists k. exact Ex. }
  destruct Nb as [[ys Ey]|[k Ey]].
  2: { unfold is_complex. rewrite Ex, Ey. simpl. split; [|auto]. split; [|auto]. intros _. do 5 right. left. exists k. exact Ey. }
  replace (is_complex a || is_complex b) with false by (unfold is_complex; rewrite Ex, Ey; reflexivity).
  replace (convert to_float a) with (Ok a) by (unfold convert; rewrite Ex; reflexivity).
  replace (convert to_float b) with (Ok b) by (unfold convert; rewrite Ey; reflexivity). cbn [bind].
  assert (Ca : ~ complex a) by (intros [k C]; congruence). assert (Cb : ~ complex b) by (intros [k C]; congruence).
  pose proof (not_finite_numbers a b xs ys Ex Ey) as H. destruct (not_finite_ok a b xs ys Ex Ey) as [[|] E]; rewrite E in H |- *; cbn [bind].
  - split; [|auto]. split; [|auto]. intros _. destruct (proj1 H eq_refl); tauto.
  - split; [|auto]. split; [discriminate|]. intros [D|[D|[D|[D|[D|[D|[D|D]]]]]]]; try contradiction; try discriminate;
      exfalso; (assert (Ok false = @Ok bool true) by tauto); discriminate.
Qed.

(** The checks that do not look at the entries, on whatever data. *)
Theorem validate_shape X y a b :
  in_array X = Ok a -> in_array y = Ok b ->
  in_sparse X = true \/ empty a \/ empty b \/ length (a_shape a) = 1 \/ complex a \/ complex b ->
  validate X y = Err ValueError.
Proof.
  intros A B H. unfold ModelValidate.validate. rewrite A, B. cbn [bind]. rewrite <- !size_zero in H.
  destruct (in_sparse X); [reflexivity|].
  destruct (Nat.eqb_spec (size a) 0); [reflexivity|]. destruct (Nat.eqb_spec (size b) 0); [reflexivity|].
  destruct (Nat.eqb_spec (length (a_shape a)) 1); [reflexivity|].
  unfold is_complex. destruct H as [H|[H|[H|[H|[[k H]|[k H]]]]]]; try contradiction; try discriminate; rewrite H; [reflexivity|].
  destruct (a_entries a); reflexivity.
Qed.

(** Objects: the first conversion that fails decides; X comes first. *)
Theorem validate_object_fails X y a b e :
  in_sparse X = false -> in_array X = Ok a -> in_array y = Ok b ->
  ~ empty a -> ~ empty b -> length (a_shape a) <> 1 -> ~ complex a -> ~ complex b ->
  (exists pre o post, a_entries a = EObject (pre ++ o :: post) /\ to_float o = Err e /\
     Forall (fun o' => exists x, to_float o' = Ok x) pre) \/
  ((exists xs, holds_numbers a xs) /\ exists pre o post, a_entries b = EObject (pre ++ o :: post) /\ to_float o = Err e /\
     Forall (fun o' => exists x, to_float o' = Ok x) pre) ->
  validate X y = Err e.
Proof.
  intros S A B Ea Eb D Ca Cb H. unfold ModelValidate.validate. rewrite S, A, B. cbn [bind]. rewrite <- size_zero in Ea, Eb.
  destruct (Nat.eqb_spec (size a) 0); [contradiction|]. destruct (Nat.eqb_spec (size b) 0); [contradiction|].
  destruct (Nat.eqb_spec (length (a_shape a)) 1); [contradiction|].
  replace (is_complex a || is_complex b) with false.
  2: { symmetry. apply orb_false_iff. unfold is_complex. split.
       - destruct (a_entries a) as [| k | |] eqn:E; try reflexivity. exfalso. apply Ca. exists k. exact E.
       - destruct (a_entries b) as [| k | |] eqn:E; try reflexivity. exfalso. apply Cb. exists k. exact E. }
  assert (M : forall c, (exists pre o post, a_entries c = EObject (pre ++ o :: post) /\ to_float o = Err e /\
     Forall (fun o' => exists x, to_float o' = Ok x) pre) -> convert to_float c = Err e).
  { intros c [pre [o [post [E [T P]]]]]. unfold convert. rewrite E. clear E. induction P as [|q pre [x Q] P IH]; simpl.
    - rewrite T. reflexivity.
    - rewrite Q. simpl. destruct (map_res to_float (pre ++ o :: post)); simpl in *; [discriminate|exact IH]. }
  destruct H as [H|[[xs Hx] H]]; [rewrite (M _ H); reflexivity|].
  rewrite (proj2 (convert_numbers a (mkarr (a_shape a) (ENum xs)) xs eq_refl)) by auto. cbn [bind].
  rewrite (M _ H). reflexivity.
Qed.

(** Data of another kind, such as strings, raise TypeError. *)
Theorem validate_other X y a b n :
  in_sparse X = false -> in_array X = Ok a -> in_array y = Ok b ->
  ~ empty a -> ~ empty b -> length (a_shape a) <> 1 -> ~ complex b ->
  (forall os, a_entries b = EObject os -> exists xs, Forall2 (fun o x => to_float o = Ok x) os xs) ->
  a_entries a = EOther n -> validate X y = Err TypeError.
Proof.
  intros S A B Ea Eb D Cb Ob E. unfold ModelValidate.validate. rewrite S, A, B. cbn [bind]. rewrite <- size_zero in Ea, Eb.
  destruct (Nat.eqb_spec (size a) 0); [contradiction|]. destruct (Nat.eqb_spec (size b) 0); [contradiction|].
  destruct (Nat.eqb_spec (length (a_shape a)) 1); [contradiction|]. unfold is_complex. rewrite E. simpl.
  unfold convert at 1. rewrite E. cbn [bind].
  assert (G : forall b', not_finite is_nan is_inf a b' = Err TypeError) by (intro b'; unfold not_finite, any; rewrite E; reflexivity).
  unfold convert. destruct (a_entries b) as [ys|k|os|k] eqn:E2; cbn [bind].
  - rewrite G. reflexivity.
  - exfalso. apply Cb. exists k. exact E2.
  - destruct (Ob os eq_refl) as [xs Fx]. apply map_res_Forall2 in Fx. rewrite Fx. cbn [bind]. rewrite G. reflexivity.
  - rewrite G. reflexivity.
Qed.

Lemma skipn_add {A : Type} (l : list A) a b : skipn a (skipn b l) = skipn (b + a) l.
Proof. revert l. induction b as [|b IH]; intros [|x l]; simpl; try reflexivity; [destruct a; reflexivity|apply IH]. Qed.
Lemma chunks_nth {A : Type} n k (l : list A) i : i < n ->
  nth_error (chunks n k l) i = Some (firstn k (skipn (i * k) l)).
Proof.
  revert l i. induction n as [|n IH]; intros l i H; [lia|]. destruct i as [|i]; simpl; [reflexivity|].
  rewrite IH by lia. rewrite skipn_add. reflexivity.
Qed.
Lemma chunks_length {A : Type} n k (l : list A) : length (chunks n k l) = n.
Proof. revert l. induction n as [|n IH]; intro l; simpl; [reflexivity|]. rewrite IH. reflexivity. Qed.

Lemma nth_skipn {A : Type} (l : list A) k i : nth_error (skipn k l) i = nth_error l (k + i).
Proof. revert l. induction k as [|k IH]; intros [|x l]; simpl; try reflexivity; [destruct i; reflexivity|apply IH]. Qed.
Lemma nth_firstn {A : Type} (l : list A) k i : i < k -> nth_error (firstn k l) i = nth_error l i.
Proof. revert l i. induction k as [|k IH]; intros [|x l] [|i] H; simpl; try reflexivity; try lia. apply IH. lia. Qed.

(** The rows of a numeric array with at least one axis. *)
Theorem rows_spec (a : ndarray F O) xs n dims :
  a_entries a = ENum xs -> a_shape a = n :: dims -> array_ok a ->
  exists rs, rows a = Ok rs /\ length rs = n /\ forall i, i < n -> exists r, nth_error rs i = Some r /\ is_row a i r.
Proof.
  intros E Sh W. unfold rows. rewrite E, Sh. eexists. split; [reflexivity|]. rewrite map_length, chunks_length.
  split; [reflexivity|]. intros i Hi. eexists. split.
  - apply map_nth_error, chunks_nth, Hi.
  - set (k := fold_right Nat.mul 1 dims). unfold array_ok, size in W. rewrite E, Sh in W. simpl in W. fold k in W.
    assert (Lk : length (firstn k (skipn (i * k) xs)) = k) by (rewrite firstn_length, skipn_length, W; nia).
    exists n, dims, xs, (firstn k (skipn (i * k) xs)). repeat split; try assumption.
    intros j Hj. rewrite Lk in Hj |- *. rewrite nth_firstn by exact Hj. apply nth_skipn.
Qed.

Lemma rows_zero_d (a : ndarray F O) : a_shape a = [] -> rows a = Err TypeError.
Proof. intro E. unfold rows. rewrite E. reflexivity. Qed.

(** What [validate] returns is a well-formed numeric array if its arguments are. *)
Lemma validate_ok X y X' y' : validate X y = Ok (X', y') ->
  (exists xs, a_entries X' = ENum xs) /\ (exists ys, a_entries y' = ENum ys) /\
  length (a_shape X') <> 1 /\
  ((forall a, in_array X = Ok a -> array_ok a) -> array_ok X') /\
  ((forall a, in_array y = Ok a -> array_ok a) -> array_ok y').
Proof.
  intro V. apply validate_accepts in V as [a [b [xs [ys [_ [A [B [_ [_ [D [Ha [_ [-> [Hb [_ ->]]]]]]]]]]]]]]]. simpl.
  assert (G : forall c zs, holds_numbers c zs -> array_ok c -> array_ok (mkarr (a_shape c) (@ENum F O zs))).
  { intros c zs [E|[os [E H]]] W; unfold array_ok, size in *; rewrite E in W; simpl in *; [exact W|].
    rewrite <- W. clear -H. induction H; simpl; congruence. }
  repeat split; eauto.
Qed.

(** Rows handed back to [np.asarray] give an array with those rows. *)
Lemma input_of_rows_ok (rs : list (ndarray F O)) dims :
  rs <> [] -> (forall r, In r rs -> a_shape r = dims /\ exists xs, a_entries r = ENum xs /\ length xs = fold_right Nat.mul 1 dims) ->
  exists a, in_array (input_of_rows rs) = Ok a /\ rows a = Ok rs /\ a_shape a = length rs :: dims.
Proof.
  intros Hne H. destruct rs as [|r0 rs0]; [contradiction|]. set (rs := r0 :: rs0) in *.
  destruct (H r0) as [E0 _]; [simpl; auto|].
  assert (Hall : forallb (fun r' => if list_eq_dec Nat.eq_dec (a_shape r') (a_shape r0) then true else false) rs = true).
  { apply forallb_forall. intros r I. rewrite E0. destruct (H r I) as [-> _]. destruct (list_eq_dec Nat.eq_dec dims dims); [reflexivity|contradiction]. }
  assert (Q : in_array (input_of_rows rs) =
    (if forallb (fun r' => if list_eq_dec Nat.eq_dec (a_shape r') (a_shape r0) then true else false) rs
     then Ok (mkarr (length rs :: a_shape r0) (@ENum F O (concat (map row_entries rs)))) else Err ValueError)) by reflexivity.
  rewrite Q. rewrite Hall. eexists. split; [reflexivity|]. rewrite E0. split; [|reflexivity]. unfold rows. cbn [a_shape a_entries].
  f_equal. clear Q Hne Hall E0. clearbody rs. clear r0 rs0. induction rs as [|r l IH]; [reflexivity|].
  simpl. destruct (H r (or_introl eq_refl)) as [Es [xs [Ee Ln]]].
  assert (Er : row_entries r = xs) by (unfold row_entries; rewrite Ee; reflexivity). rewrite Er.
  rewrite firstn_app, skipn_app, <- Ln, Nat.sub_diag, firstn_all, skipn_all, app_nil_r. simpl. rewrite Ln. f_equal.
  - destruct r as [s e]; simpl in *. subst. reflexivity.
  - apply IH. intros r' I. apply H. right. exact I.
Qed.
End Proofs.
