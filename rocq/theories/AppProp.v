(** Facts about the model of the web application. *)
From Coq Require Import String Reals Lra Lia.
From Verif Require Import Base BaseFacts Dict DictFacts ModelArith ModelCore ModelDraw ModelPlotly ModelApp SpecApp SpecMetric PlotlyFacts PyvisProp.
Open Scope nat_scope.

(** *** fix_data *)
Section Fix.
Variable A : arith.
Variable missing : num A -> bool.
Variable nan : num A.
Notation fill_named := (fill_named A missing).
Notation fill := (fill A missing).
Notation col_mean := (col_mean A missing nan).

Lemma fill_named_all ps : NoDup (map fst ps) -> forall cols,
  fold_left fill_named ps cols =
  map (fun c => match dget String.eqb ps (fst c) with Some v => (fst c, fill v (snd c)) | None => c end) cols.
Proof.
  induction ps as [|[k v] ps IH]; intros N cols.
  - cbn. symmetry. apply map_id.
  - inversion N as [|? ? N1 N2]; subst. cbn [fold_left]. rewrite (IH N2). unfold ModelApp.fill_named. rewrite map_map. apply map_ext.
    intros [n c]. cbn [fst snd dget]. rewrite (String.eqb_sym n k). destruct (String.eqb_spec k n) as [->|E]; cbn [fst snd]; [|reflexivity].
    rewrite (proj2 (dget_none String.eqb string_eqb_decides ps n) N1). reflexivity.
Qed.

Lemma filter_keys (f : string * column_data A -> bool) l : NoDup (map fst l) -> NoDup (map fst (filter f l)).
Proof.
  induction l as [|c l IH]; cbn; intro N; [constructor|]. inversion N as [|? ? N1 N2]; subst.
  destruct (f c); cbn; [|auto]. constructor; [|auto]. intro I. apply N1. apply in_map_iff in I. destruct I as [x [E I]].
  apply filter_In in I. rewrite <- E. apply in_map. tauto.
Qed.

Definition kept (d : frame A) : list (string * column_data A) :=
  filter (fun c => has_value A missing (snd c)) (filter (fun c => is_numeric A (snd c)) (fr_cols d)).
Lemma fix_data_closed (d : frame A) : NoDup (map fst (fr_cols d)) ->
  fix_data A missing nan d = mkframe (fr_rows d) (map (fun c => (fst c, fill (col_mean (snd c)) (snd c))) (kept d)).
Proof.
  intro N. unfold ModelApp.fix_data. f_equal. fold (kept d).
  assert (Nk : NoDup (map fst (kept d))) by (apply filter_keys, filter_keys; exact N).
  assert (E : map fst (map (fun c => (fst c, col_mean (snd c))) (kept d)) = map fst (kept d)) by (rewrite map_map; reflexivity).
  rewrite fill_named_all by (rewrite E; exact Nk). apply map_ext_in. intros c I.
  rewrite (dget_entry_nodup String.eqb string_eqb_decides _ (fst c) (col_mean (snd c))); [reflexivity| |].
  - unfold dkeys. rewrite E. exact Nk.
  - apply in_map_iff. exists c. auto.
Qed.
End Fix.

(** *** fix_data on extended reals *)
Notation xmean := (mean_of XA xnan XNan).
Lemma present_known l : finite l -> present XA xnan l = map XFin (known l).
Proof.
  induction l as [|x l IH]; intro F; [reflexivity|]. cbn [present filter known].
  assert (F' : finite l) by (intros y I; apply F; right; exact I).
  destruct (F x (or_introl eq_refl)) as [->|[r ->]]; cbn [xnan negb map]; fold (present XA xnan l); rewrite (IH F'); reflexivity.
Qed.
Lemma xsum_gen rs : forall a, fold_left (add XA) (map XFin rs) (XFin a) = XFin (a + fold_right Rplus 0%R rs).
Proof.
  induction rs as [|r rs IH]; intro a; cbn [map fold_left fold_right]; [f_equal; lra|].
  cbn [XA add xadd]. change xadd with (add XA). rewrite IH. f_equal. lra.
Qed.
Lemma xmean_known l : finite l -> known l <> [] -> xmean l = XFin (average (known l)).
Proof.
  intros F N. unfold mean_of. rewrite (present_known l F). destruct (known l) as [|r rs] eqn:E; [contradiction|].
  cbn [map]. change (XFin r :: map XFin rs) with (map XFin (r :: rs)). unfold sum, zero. cbn [XA ofz]. rewrite xsum_gen.
  unfold average. rewrite map_length. cbn [XA div xdiv ofz]. destruct (Req_EM_T (IZR (Z.of_nat (length (r :: rs)))) 0) as [K|K].
  - rewrite <- INR_IZR_INZ in K. exfalso. revert K. apply not_0_INR. discriminate.
  - rewrite <- INR_IZR_INZ. f_equal. rewrite Rplus_0_l. reflexivity.
Qed.
Lemma known_value l : finite l -> (existsb (fun x => negb (xnan x)) l = true <-> known l <> []).
Proof.
  induction l as [|x l IH]; intro F; cbn [existsb known]; [split; [discriminate|contradiction]|].
  assert (F' : finite l) by (intros y I; apply F; right; exact I).
  destruct (F x (or_introl eq_refl)) as [->|[r ->]]; cbn [xnan negb orb]; [apply IH; exact F'|split; [discriminate|reflexivity]].
Qed.

Definition xfill (v : xr) (l : list xr) : list xr := map (fun x => if xnan x then v else x) l.
Lemma filled_xfill l : finite l -> filled l (xfill (XFin (average (known l))) l).
Proof.
  intro F. unfold filled. generalize (average (known l)) as v. intro v. induction l as [|x l IH]; constructor.
  - destruct (F x (or_introl eq_refl)) as [->|[r ->]]; cbn; [right; auto|left; split; [discriminate|reflexivity]].
  - apply IH. intros y I. apply F. right. exact I.
Qed.
Lemma xfill_known v l : finite l ->
  length (known (xfill (XFin v) l)) = length l /\
  fold_right Rplus 0%R (known (xfill (XFin v) l)) = (fold_right Rplus 0%R (known l) + INR (length l - length (known l)) * v)%R /\
  length (known l) <= length l.
Proof.
  induction l as [|x l IH]; intro F; [cbn; repeat split; try lia; lra|].
  destruct IH as [I1 [I2 I3]]; [intros y I; apply F; right; exact I|].
  destruct (F x (or_introl eq_refl)) as [->|[r ->]]; cbn [xfill map xnan known length fold_right]; fold (xfill (XFin v) l); rewrite I1, I2.
  - split; [reflexivity|]. split; [|lia]. rewrite Nat.sub_succ_l by exact I3. rewrite S_INR. lra.
  - split; [reflexivity|]. split; [|lia]. cbn [Nat.sub]. lra.
Qed.
Lemma average_kept l : finite l -> known l <> [] -> average (known (xfill (XFin (average (known l))) l)) = average (known l).
Proof.
  intros F N. destruct (xfill_known (average (known l)) l F) as [E1 [E2 E3]]. unfold average at 1. rewrite E1, E2. rewrite minus_INR by exact E3.
  assert (P : (0 < INR (length (known l)))%R) by (apply lt_0_INR; destruct (known l); [contradiction|cbn; lia]).
  assert (Q : (0 < INR (length l))%R) by (apply le_INR in E3; lra).
  unfold average. field. split; lra.
Qed.
Lemma xfill_finite v l : finite l -> finite (xfill (XFin v) l) /\ ~ In XNan (xfill (XFin v) l).
Proof.
  intro F. split.
  - intros x I. apply in_map_iff in I. destruct I as [y [<- I]]. destruct (F y I) as [->|[r ->]]; cbn; eauto.
  - intro I. apply in_map_iff in I. destruct I as [y [E I]]. destruct (F y I) as [->|[r ->]]; cbn in E; discriminate.
Qed.

Definition finite_frame (d : frame XA) : Prop := forall name l, In (name, CNum (A := XA) l) (fr_cols d) -> finite l.
Lemma fix_data_fixed (d : frame XA) : NoDup (map fst (fr_cols d)) -> finite_frame d ->
  fr_rows (fix_data XA xnan XNan d) = fr_rows d /\ fixed (fr_cols d) (fr_cols (fix_data XA xnan XNan d)).
Proof.
  intros N F. rewrite (fix_data_closed XA xnan XNan d N). cbn [fr_rows fr_cols]. split; [reflexivity|]. clear N. unfold kept.
  destruct d as [rows cols]. unfold finite_frame in F. cbn [fr_cols] in *.
  induction cols as [|[name [l|]] cols IH]; cbn [filter map snd is_numeric]; [constructor| |].
  - assert (F' : forall name0 l0, In (name0, CNum (A := XA) l0) cols -> finite l0) by (intros n0 l0 I; apply (F n0 l0); right; exact I).
    specialize (IH F'). assert (Fl : finite l) by (apply (F name l); left; reflexivity). cbn [has_value].
    destruct (existsb (fun x : num XA => negb (xnan x)) l) eqn:E.
    + apply (known_value l Fl) in E. cbn [map fst snd fill col_mean]. apply fixed_kept; [exact E| |exact IH].
      rewrite (xmean_known l Fl E). apply filled_xfill. exact Fl.
    + apply fixed_void; [|exact IH]. destruct (known l) eqn:K; [reflexivity|]. exfalso.
      assert (Q : known l <> []) by (rewrite K; discriminate). apply (known_value l Fl) in Q. discriminate (eq_trans (eq_sym E) Q).
  - apply fixed_other. apply IH. intros n0 l0 I. apply (F n0 l0). right. exact I.
Qed.

Lemma filled_unique l l' : finite l -> filled l l' -> l' = xfill (XFin (average (known l))) l.
Proof.
  intros F H. unfold filled in H. revert H. generalize (average (known l)) as v. intros v H.
  induction H as [|x x' l l' H _ IH]; [reflexivity|]. cbn [xfill map]. fold (xfill (XFin v) l).
  rewrite <- IH by (intros y I; apply F; right; exact I).
  destruct H as [[H ->]|[-> ->]]; [|reflexivity]. destruct x; try reflexivity. contradiction.
Qed.

(** *** Settings *)
Lemma xtrunc_int z : xtrunc (XFin (IZR z)) = Ok z.
Proof.
  unfold xtrunc. f_equal. assert (I : forall k, Int_part (IZR k) = k).
  { intro k. unfold Int_part. rewrite <- (tech_up (IZR k) (k + 1)); [lia| |]; rewrite plus_IZR; lra. }
  destruct (Rle_dec 0 (IZR z)); [apply I|]. rewrite <- opp_IZR, I. lia.
Qed.
Lemma xzero_b x : eq_b XA x (zero XA) = true <-> x = XFin 0.
Proof.
  unfold eq_b, zero. cbn [XA le_b ofz]. destruct x as [| |r|]; cbn [xle]; split; try discriminate.
  - unfold Rleb. destruct (Rle_dec r 0), (Rle_dec 0 r); cbn; try discriminate. intros _. f_equal. lra.
  - intro E. injection E as ->. unfold Rleb. destruct (Rle_dec 0 0); [reflexivity|lra].
Qed.
Lemma int_shown v d z : d <> 0%Z -> int_or XA xtrunc v d = Ok z ->
  (shows_int v z <-> exists z', z' <> 0%Z /\ v = Some (XFin (IZR z'))).
Proof.
  intros D H. unfold shows_int. split.
  - intros ->. exists z. split; [|reflexivity]. intros ->. cbn [int_or] in H. rewrite (proj2 (xzero_b (XFin 0)) eq_refl) in H. congruence.
  - intros [z' [N ->]]. cbn [int_or] in H. destruct (eq_b XA (XFin (IZR z')) (zero XA)) eqn:E.
    + apply xzero_b in E. injection E as E. apply eq_IZR in E. contradiction.
    + rewrite xtrunc_int in H. injection H as <-. reflexivity.
Qed.
Lemma int_shown_ok z d : z <> 0%Z -> int_or XA xtrunc (Some (XFin (IZR z))) d = Ok z.
Proof.
  intro N. cbn [int_or]. destruct (eq_b XA (XFin (IZR z)) (zero XA)) eqn:E; [|apply xtrunc_int].
  apply xzero_b in E. injection E as E. apply eq_IZR in E. contradiction.
Qed.
Lemma num_shown v d : d <> XFin 0 -> (shows_num v (num_or XA v d) <-> exists x, x <> XFin 0 /\ v = Some x).
Proof.
  intro D. unfold shows_num. destruct v as [x|]; cbn [num_or].
  - destruct (eq_b XA x (zero XA)) eqn:E.
    + apply xzero_b in E. subst x. split; [intro K; injection K as K; congruence|intros [x [N K]]; congruence].
    + split; [|reflexivity]. intros _. exists x. split; [|reflexivity]. intros ->. rewrite (proj2 (xzero_b (XFin 0)) eq_refl) in E. discriminate.
  - split; [discriminate|intros [x [_ K]]; discriminate].
Qed.
Lemma str_shown v d : d <> ""%string -> (v = Some (str_or v d) <-> exists s, s <> ""%string /\ v = Some s).
Proof.
  intro D. destruct v as [s|]; cbn [str_or].
  - destruct (String.eqb_spec s "") as [->|E].
    + split; [intro K; injection K as K; congruence|intros [s [N K]]; congruence].
    + split; [|reflexivity]. intros _. exists s. auto.
  - split; [discriminate|intros [s [_ K]]; discriminate].
Qed.
Lemma xfrac_nonzero z : (0 < z)%Z -> div XA (ofz XA 1) (ofz XA z) <> XFin 0.
Proof.
  intros P E. cbn [XA div ofz xdiv] in E. assert (0 < IZR z)%R by (apply (IZR_lt 0); exact P).
  destruct (Req_EM_T (IZR z) 0); [discriminate|]. injection E as E. assert (0 < 1 / IZR z)%R by (apply Rdiv_lt_0_compat; lra). lra.
Qed.

Lemma config_agrees (c : controls XA) g : get_mapper_config XA xtrunc c = Ok g -> (agrees c g <-> usable c).
Proof.
  unfold get_mapper_config. intro H.
  apply bind_ok in H. destruct H as [dim [Ed H]]. destruct (v_dimensions c) as [dim'|] eqn:Ev; [|discriminate]. injection Ed as ->.
  cbv zeta in H.
  apply bind_ok in H. destruct H as [i1 [H1 H]]. apply bind_ok in H. destruct H as [i2 [H2 H]]. apply bind_ok in H. destruct H as [i3 [H3 H]].
  apply bind_ok in H. destruct H as [i4 [H4 H]]. apply bind_ok in H. destruct H as [i5 [H5 H]]. apply bind_ok in H. destruct H as [i6 [H6 H]].
  apply bind_ok in H. destruct H as [i7 [H7 H]]. apply bind_ok in H. destruct H as [i8 [H8 H]]. apply bind_ok in H. destruct H as [i9 [H9 H]].
  injection H as <-.
  assert (Q1 := int_shown _ 2 _ ltac:(discriminate) H1). assert (Q2 := int_shown _ 2 _ ltac:(discriminate) H2).
  assert (Q3 := int_shown _ 10 _ ltac:(discriminate) H3). assert (Q4 := int_shown _ 10 _ ltac:(discriminate) H4).
  assert (Q5 := int_shown _ 2 _ ltac:(discriminate) H5). assert (Q6 := int_shown _ 5 _ ltac:(discriminate) H6).
  assert (Q7 := int_shown _ 2 _ ltac:(discriminate) H7). assert (Q8 := int_shown _ 100 _ ltac:(discriminate) H8).
  assert (Q9 := int_shown _ 42 _ ltac:(discriminate) H9).
  assert (N1 := num_shown (v_overlap_frac c) (quarter XA) (xfrac_nonzero 4 eq_refl)).
  assert (N2 := num_shown (v_dbscan_eps c) (half XA) (xfrac_nonzero 2 eq_refl)).
  assert (N3 := num_shown (v_ball_radius c) (ofz XA 100) ltac:(cbn; intro K; injection K as K; lra)).
  assert (S1 := str_shown (v_lens_type c) "PCA" ltac:(discriminate)). assert (S2 := str_shown (v_cover_type c) "Cubical Cover" ltac:(discriminate)).
  assert (S3 := str_shown (v_clustering_type c) "Skip" ltac:(discriminate)).
  split.
  - intros [X1 X2 X3 X4 X5 X6 X7 X8 X9 X10 X11 X12 X13 X14 X15 X16 X17 X18 X19]. cbn in *. unfold usable.
    split; [exact X3|]. split; [exact X5|]. split; [|split; [|split]].
    + unfold int_controls. intros v [<-|[<-|[<-|[<-|[<-|[<-|[<-|[<-|[<-|[]]]]]]]]]]; tauto.
    + unfold num_controls. intros v [<-|[<-|[<-|[]]]]; tauto.
    + unfold choice_controls. intros v [<-|[<-|[<-|[]]]]; tauto.
    + rewrite Ev in X17. rewrite Ev. destruct (Z.eqb_spec dim 2); [subst; auto|]. destruct (Z.eqb_spec dim 3); [subst; auto|]. injection X17 as X17. lia.
  - intros [U1 [U2 [U3 [U4 [U5 U6]]]]]. constructor; cbn.
    all: try assumption.
    + unfold shows_list. destruct (v_excluded c); cbn; auto.
    + apply S1, U5. cbn; auto.
    + apply S2, U5. cbn; auto.
    + apply S3, U5. cbn; auto.
    + apply Q1, U3. cbn; auto 12.
    + apply Q2, U3. cbn; auto 12.
    + apply Q3, U3. cbn; auto 12.
    + apply N1, U4. cbn; auto 12.
    + apply N3, U4. cbn; auto 12.
    + apply Q4, U3. cbn; auto 12.
    + apply Q5, U3. cbn; auto 12.
    + apply N2, U4. cbn; auto 12.
    + apply Q6, U3. cbn; auto 12.
    + apply Q7, U3. cbn; auto 12.
    + rewrite Ev in U6. rewrite Ev. destruct U6 as [U6|U6]; injection U6 as ->; reflexivity.
    + apply Q8, U3. cbn; auto 12.
    + apply Q9, U3. cbn; auto 12.
Qed.
Lemma usable_config (c : controls XA) : usable c -> exists g, get_mapper_config XA xtrunc c = Ok g.
Proof.
  intros [_ [_ [U3 [_ [_ U6]]]]]. unfold get_mapper_config.
  assert (I : forall v d, In v (int_controls c) -> exists z, int_or XA xtrunc v d = Ok z).
  { intros v d K. destruct (U3 v K) as [z [N ->]]. exists z. apply int_shown_ok. exact N. }
  destruct (I (v_pca_n_components c) 2%Z) as [i1 E1]; [cbn; auto 12|]. destruct (I (v_umap_n_components c) 2%Z) as [i2 E2]; [cbn; auto 12|].
  destruct (I (v_n_intervals c) 10%Z) as [i3 E3]; [cbn; auto 12|]. destruct (I (v_knn_neighbors c) 10%Z) as [i4 E4]; [cbn; auto 12|].
  destruct (I (v_kmeans_n_clusters c) 2%Z) as [i5 E5]; [cbn; auto 12|]. destruct (I (v_dbscan_min_samples c) 5%Z) as [i6 E6]; [cbn; auto 12|].
  destruct (I (v_agglomerative_n_clusters c) 2%Z) as [i7 E7]; [cbn; auto 12|]. destruct (I (v_iterations c) 100%Z) as [i8 E8]; [cbn; auto 12|].
  destruct (I (v_seed c) 42%Z) as [i9 E9]; [cbn; auto 12|].
  rewrite E1, E2, E3, E4, E5, E6, E7, E8, E9. destruct U6 as [-> | ->]; cbn [bind]; eexists; reflexivity.
Qed.
