(** C75: the algorithm made by the controls of the former app. *)
From Coq Require Import String Ascii DecimalString.
From Verif Require Import Base BaseFacts Dict DictFacts ModelCore ModelObjects SpecObjects ModelRepr SpecRepr ObjectFacts CloneProp ReprProp PropRepr SpecReprText ReprTextFacts PropReprMore ModelOldControls SpecOldControls OldControlsFacts.
From Verif Require ModelArith ModelApp ModelOldApp SpecOldApp ModelJson JsonFacts.
Open Scope nat_scope.
Open Scope list_scope.
Local Open Scope string_scope.
Local Open Scope list_scope.

(** ** C75: the algorithm that was chosen, known by its text *)

(** Whatever is chosen, the controls make the algorithm that is meant: its class,
    the cover and the clustering, and all their parameters; and it has a text. *)
Theorem C75_made : forall c, offered c ->
  exists k g l h, chose_cover (co_cover c) k /\ chose_clustering (co_clustering c) g /\
    make_algorithm c = Ok (l, h) /\ algorithm_made h l k g /\
    (forall repr_atom repr_foreign lim, 5 <= lim -> exists t, algorithm_text repr_atom repr_foreign lim c = Ok t).
Proof.
  intros c O. destruct (make_algorithm_ok c O) as [k [g [l [h [Ck [Cg [_ [_ [E [L [M F]]]]]]]]]]].
  exists k, g, l, h. split; [exact Ck|]. split; [exact Cg|]. split; [exact E|]. split; [exact M|].
  intros ra rf lim Hl. unfold algorithm_text. rewrite E. cbn [bind fst snd].
  apply (C57_total library library_name ra rf h (fun l => l) l lim (fine_heap h F) (fine_objects h F)); [|lia].
  destruct M as [v [w [_ [_ N]]]]. apply nth_error_Some. congruence.
Qed.
Print Assumptions C75_made.

(** There is one choice of a cover and one of a clustering. *)
Theorem C75_one_choice : forall c k k' g g',
  chose_cover (co_cover c) k -> chose_cover (co_cover c) k' ->
  chose_clustering (co_clustering c) g -> chose_clustering (co_clustering c) g' -> k = k' /\ g = g'.
Proof.
  assert (X : forall c k k', chose_cover c k -> chose_cover c k' -> k = k')
    by (intros c k k' A B; inversion A; inversion B; congruence).
  intros c k k' g g' A B C D. split; [eapply X; eauto|].
  inversion C; inversion D; try congruence. f_equal. eapply X; eauto.
Qed.
Print Assumptions C75_one_choice.

(** Nothing but the choice matters: the other controls are not looked at. *)
Theorem C75_other_controls : forall c c' k g,
  chose_cover (co_cover c) k -> chose_clustering (co_clustering c) g ->
  chose_cover (co_cover c') k -> chose_clustering (co_clustering c') g -> make_algorithm c = make_algorithm c'.
Proof.
  assert (X : forall c c' k h, chose_cover c k -> chose_cover c' k -> make_cover c h = make_cover c' h).
  { intros c c' k h A B. destruct c, c'. inversion A; subst; inversion B; cbn in *; subst; reflexivity. }
  intros c c' k g A B A' B'. unfold make_algorithm. rewrite (X _ _ k [] A A').
  destruct (make_cover (co_cover c') []) as [[v h]|e]; [|reflexivity]. cbn [bind fst snd].
  assert (Y : make_clustering (co_clustering c) h = make_clustering (co_clustering c') h); [|rewrite Y; reflexivity].
  destruct (co_clustering c) as [ty cc n1 n2 li m1 e n3 m2 n4 m3 d n5], (co_clustering c') as [ty' cc' n1' n2' li' m1' e' n3' m2' n4' m3' d' n5'].
  inversion B; subst; inversion B'; cbn in *; subst; try reflexivity. unfold make_clustering.
  cbn [lc_type lc_cover String.eqb Ascii.eqb Bool.eqb].
  match goal with H : chose_cover cc ?k, H' : chose_cover cc' ?k |- _ => rewrite (X _ _ k h H H') end. reflexivity.
Qed.
Print Assumptions C75_other_controls.

(** Two settings of the controls have the same text only if they choose the same
    cover and the same clustering, if texts of numbers and names, and those of the
    algorithms of scikit-learn, tell them apart. *)
Theorem C75_texts_tell : forall repr_atom repr_foreign c c' k k' g g' lim lim' t t',
  settings_tell repr_atom -> clusterings_tell repr_atom repr_foreign -> offered c -> offered c' ->
  chose_cover (co_cover c) k -> chose_clustering (co_clustering c) g ->
  chose_cover (co_cover c') k' -> chose_clustering (co_clustering c') g' ->
  algorithm_text repr_atom repr_foreign lim c = Ok t -> algorithm_text repr_atom repr_foreign lim' c' = Ok t' ->
  t = t' -> k = k' /\ g = g'.
Proof.
  intros ra rf c c' k k' g g' lim lim' t t' ST CT O O' Ck Cg Ck' Cg' E E' <-.
  destruct (make_algorithm_ok c O) as [k1 [g1 [l [h [A1 [B1 [Nk [Ng [Q [_ [M F]]]]]]]]]]].
  destruct (make_algorithm_ok c' O') as [k2 [g2 [l' [h' [A2 [B2 [Nk' [Ng' [Q' [_ [M' F']]]]]]]]]]].
  destruct (C75_one_choice c k k1 g g1 Ck A1 Cg B1) as [-> ->]. destruct (C75_one_choice c' k' k2 g' g2 Ck' A2 Cg' B2) as [-> ->].
  unfold algorithm_text in E, E'. rewrite Q in E. rewrite Q' in E'. cbn [bind fst snd] in E, E'.
  exact (algorithm_tells ra rf ST CT h h' lim lim' l l' k1 k2 g1 g2 t F F' Nk Nk' Ng Ng' M M' E E').
Qed.
Print Assumptions C75_texts_tell.

(** Hence the cache of [compute_mapper], which knows the algorithms by their
    texts, never takes one for another: the hypothesis [texts_tell] of C72 holds in
    every session, if what an algorithm does depends on the cover and the
    clustering chosen. *)
Theorem C75_session : forall A repr_atom repr_foreign lim
  (fit_transform : controls -> ModelApp.matrix A -> ModelApp.matrix A -> res graph) (is : list (ModelOldApp.inputs A controls)),
  settings_tell repr_atom -> clusterings_tell repr_atom repr_foreign -> 5 <= lim ->
  (forall c c' k g, chose_cover (co_cover c) k -> chose_clustering (co_clustering c) g ->
     chose_cover (co_cover c') k -> chose_clustering (co_clustering c') g -> fit_transform c = fit_transform c') ->
  (forall i, In i is -> offered (ModelOldApp.i_algo i)) ->
  SpecOldApp.texts_tell A controls
    (fun c => match algorithm_text repr_atom repr_foreign lim c with Ok t => t | Err _ => "" end) fit_transform is.
Proof.
  intros A ra rf lim fit is ST CT Hl D O i j Ii Ij E X y.
  set (c := ModelOldApp.i_algo i) in *. set (c' := ModelOldApp.i_algo j) in *.
  destruct (C75_made c (O i Ii)) as [k [g [l [h [Ck [Cg [_ [_ T]]]]]]]].
  destruct (C75_made c' (O j Ij)) as [k' [g' [l' [h' [Ck' [Cg' [_ [_ T']]]]]]]].
  destruct (T ra rf lim Hl) as [t Et]. destruct (T' ra rf lim Hl) as [t' Et']. rewrite Et, Et' in E.
  destruct (C75_texts_tell ra rf c c' k k' g g' lim lim t t' ST CT (O i Ii) (O j Ij) Ck Cg Ck' Cg' Et Et' E) as [<- <-].
  rewrite (D c c' k g Ck Cg Ck' Cg'). reflexivity.
Qed.
Print Assumptions C75_session.

(** *** Examples: texts that satisfy the hypotheses *)
Definition z_text (z : Z) : string := NilZero.string_of_int (Z.to_int z).
Definition conc_atom (v : value) : string :=
  match v with
  | VNone => "None"
  | VBool true => "True"
  | VBool false => "False"
  | VInt z => z_text z
  | VData n => (z_text (Z.of_nat n) ++ ".")%string
  | VStr s => ("'" ++ s ++ "'")%string
  | _ => "?"
  end.
Definition conc_name (c : nat) : string :=
  nth (c - 10) ["KMeans"; "AgglomerativeClustering"; "DBSCAN"; "HDBSCAN"; "AffinityPropagation"] "Estimator".
Definition conc_expr (o : obj) : rexpr := RCall (o_class o) (map (fun kv => (fst kv, RAtom (conc_atom (snd kv)))) (o_attrs o)).
Definition conc_foreign (o : obj) : string := render conc_name (conc_expr o).

Example C75_example :
  algorithm_text conc_atom conc_foreign 5 default_controls = Ok "MapperAlgorithm(cover=CubicalCover(n_intervals=10), verbose=False, n_jobs=-2)" /\
  algorithm_text conc_atom conc_foreign 5
    (mkcontrols (mkcc "Ball" 4 "cosine" 10 false 5 10) (mklc "DBSCAN" default_cover 2 2 "single" "euclidean" 6 5 "manhattan" 5 "euclidean" 6 200))
  = Ok "MapperAlgorithm(cover=BallCover(radius=4., metric='cosine'), clustering=DBSCAN(eps=6., min_samples=5, metric='manhattan'), verbose=False, n_jobs=-2)" /\
  algorithm_text conc_atom conc_foreign 5
    (mkcontrols default_cover (mklc "Cover" (mkcc "Cubical" 4 "cosine" 3 true 5 10) 2 2 "single" "euclidean" 6 5 "manhattan" 5 "euclidean" 6 200))
  = Ok "MapperAlgorithm(cover=CubicalCover(n_intervals=10), clustering=MapperClustering(cover=CubicalCover(n_intervals=3, overlap_frac=5.), n_jobs=-2), verbose=False, n_jobs=-2)" /\
  offered default_controls.
Proof.
  split; [vm_compute; reflexivity|]. split; [vm_compute; reflexivity|]. split; [vm_compute; reflexivity|].
  repeat split; simpl; auto 10.
Qed.

Lemma chars_la s : chars s = ModelJson.la s.
Proof. reflexivity. Qed.
Lemma z_simple z : simple_name (z_text z).
Proof.
  unfold simple_name. rewrite chars_la. apply Forall_forall. intros c I.
  pose proof (JsonFacts.num_chars z) as H. rewrite forallb_forall in H. specialize (H c I). apply JsonFacts.num_char_cases in H.
  simpl in H. repeat (destruct H as [<-|H]; [repeat split; discriminate|]). destruct H.
Qed.
Lemma chars_app a b : chars (a ++ b) = chars a ++ chars b.
Proof. induction a as [|c a IH]; simpl; [reflexivity|f_equal; exact IH]. Qed.
Lemma simple_app a b : simple_name a -> simple_name b -> simple_name (a ++ b).
Proof. unfold simple_name. rewrite chars_app, Forall_app. auto. Qed.
Lemma atom_simple v : is_setting v -> simple_name (conc_atom v).
Proof.
  destruct v as [|[]|z|s| | |n|]; intros S; try (exfalso; exact S); cbn [conc_atom]; try (apply simple_nameb_ok; reflexivity); [apply z_simple| |].
  - apply simple_app; [apply simple_nameb_ok; reflexivity|]. apply simple_app; [exact S|apply simple_nameb_ok; reflexivity].
  - apply simple_app; [apply z_simple|apply simple_nameb_ok; reflexivity].
Qed.
Lemma simple_plain classes name s : simple_name s -> plain_text classes name s.
Proof.
  intros S. split; [apply (level_name s 0 S)|]. intros c r _ ->. unfold simple_name in S. rewrite chars_app, Forall_app in S.
  destruct S as [_ S]. inversion S as [|? ? [O _] _]. discriminate O.
Qed.

Lemma z_first z : exists c r, z_text z = String c r /\ JsonFacts.num_char c = true.
Proof.
  destruct (JsonFacts.num_head z) as [c [r [E C]]]. unfold JsonFacts.num_text in E. rewrite <- chars_la in E.
  fold (z_text z) in E. destruct (z_text z) as [|c' s]; [discriminate|]. injection E as -> _. eauto.
Qed.
Lemma z_inj z z' : z_text z = z_text z' -> z = z'.
Proof. intros E. apply JsonFacts.num_inj. unfold JsonFacts.num_text. f_equal. exact E. Qed.
Lemma z_dot z z' : z_text z = (z_text z' ++ ".")%string -> False.
Proof.
  intros E. pose proof (JsonFacts.num_chars z) as H. unfold JsonFacts.num_text in H. fold (z_text z) in H. rewrite E, <- chars_la, chars_app, forallb_app in H.
  apply andb_true_iff in H. destruct H as [_ H]. discriminate H.
Qed.

Lemma conc_settings : settings_tell conc_atom.
Proof.
  split; [intros v S; apply simple_plain, atom_simple, S|].
  assert (Z : forall z c s, z_text z = String c s -> JsonFacts.num_char c = false -> False).
  { intros z c s E N. destruct (z_first z) as [c' [r [E' C]]]. rewrite E' in E. injection E as -> _. congruence. }
  assert (Zd : forall z c s, (z_text z ++ ".")%string = String c s -> JsonFacts.num_char c = false -> False).
  { intros z c s E N. destruct (z_first z) as [c' [r [E' C]]]. rewrite E' in E. injection E as -> _. congruence. }
  intros v v' S S' E. destruct v as [|[]|z|s| | |n|], v' as [|[]|z'|s'| | |n'|]; try (exfalso; exact S); try (exfalso; exact S'); cbn [conc_atom] in E;
    try reflexivity; try discriminate E;
    try (exfalso; exact (Z _ _ _ E eq_refl)); try (exfalso; exact (Z _ _ _ (eq_sym E) eq_refl));
    try (exfalso; exact (Zd _ _ _ E eq_refl)); try (exfalso; exact (Zd _ _ _ (eq_sym E) eq_refl));
    try (exfalso; exact (z_dot _ _ E)); try (exfalso; exact (z_dot _ _ (eq_sym E))).
  - f_equal. apply z_inj, E.
  - f_equal. simpl in E. injection E as E. apply app_same_end in E. exact E.
  - f_equal. apply app_same_end in E. apply z_inj in E. lia.
Qed.

(** The classes of scikit-learn that the app uses. *)
Definition sk_classes (c : nat) : class := mkclass (if Nat.leb 10 c && Nat.leb c 14 then Mixin else NoProtocol) None [].
Lemma sk_mixin c : mixin sk_classes c <-> 10 <= c <= 14.
Proof.
  unfold mixin, sk_classes. cbn [c_protocol]. destruct (Nat.leb_spec 10 c), (Nat.leb_spec c 14); cbn; split; intros; try reflexivity; try lia; discriminate.
Qed.
Lemma sk_names : names_differ sk_classes conc_name.
Proof.
  split; [intros c M|intros c c' M M' E].
  - apply sk_mixin in M. apply simple_nameb_ok. assert (C : c = 10 \/ c = 11 \/ c = 12 \/ c = 13 \/ c = 14) by lia.
    repeat (destruct C as [->|C]; [reflexivity|]). subst. reflexivity.
  - apply sk_mixin in M, M'. assert (C : c = 10 \/ c = 11 \/ c = 12 \/ c = 13 \/ c = 14) by lia.
    assert (C' : c' = 10 \/ c' = 11 \/ c' = 12 \/ c' = 13 \/ c' = 14) by lia.
    destruct C as [->|[->|[->|[->| ->]]]]; destruct C' as [->|[->|[->|[->| ->]]]]; first [reflexivity|discriminate E].
Qed.
Lemma conc_tidy c o : named c -> sklearn_made c = Some o -> tidy sk_classes conc_name (conc_expr o) /\
  10 <= o_class o <= 14 /\ Forall (fun kv => is_setting (snd kv)) (o_attrs o).
Proof.
  intros N S.
  assert (X : 10 <= o_class o <= 14 /\ Forall (fun kv => simple_name (fst kv) /\ is_setting (snd kv)) (o_attrs o)).
  { destruct c; try discriminate S; injection S as <-; cbn [o_class o_attrs]; (split; [lia|]); cbn [named] in N;
      repeat (constructor; [split; [apply simple_nameb_ok; reflexivity|cbn [snd is_setting]; try tauto; apply simple_nameb_ok; reflexivity]|]); constructor. }
  destruct X as [B F]. split; [|split; [exact B|eapply Forall_impl; [|exact F]; cbn; tauto]].
  constructor; [apply sk_mixin, B|]. rewrite Forall_forall in *. intros a I. apply in_map_iff in I. destruct I as [kv [<- I]].
  destruct (F kv I) as [Sk Sv]. split; [exact Sk|]. constructor. apply simple_plain, atom_simple, Sv.
Qed.
Lemma attrs_inj (a b : list (string * value)) : Forall (fun kv => is_setting (snd kv)) a -> Forall (fun kv => is_setting (snd kv)) b ->
  map (fun kv => (fst kv, RAtom (conc_atom (snd kv)))) a = map (fun kv => (fst kv, RAtom (conc_atom (snd kv)))) b -> a = b.
Proof.
  revert b. induction a as [|[k v] a IH]; intros [|[k' v'] b] F F' E; try discriminate; [reflexivity|].
  inversion F; inversion F'; subst. cbn in *.
  assert (Es := f_equal (fun l => tl l) E). assert (Eh := f_equal (fun l => match l with (x, RAtom s) :: _ => (x, s) | _ => (""%string, ""%string) end) E).
  cbn in Es, Eh. f_equal; [|apply IH; assumption]. assert (k = k') by congruence. assert (conc_atom v = conc_atom v') by congruence.
  f_equal; [assumption|]. apply (proj2 conc_settings); assumption.
Qed.
Lemma conc_clusterings : clusterings_tell conc_atom conc_foreign.
Proof.
  split; [|split].
  - intros c o N S. destruct (conc_tidy c o N S) as [T [B _]]. split; [exact (tidy_item sk_classes conc_name sk_names (Datatypes.S (size (conc_expr o))) _ (le_n _) T)|].
    intros l r M E. apply library_mixin in M. unfold conc_foreign, conc_expr in E. simpl in E.
    apply (before_mark name_char "("%char _ open_not_simple) in E; [|apply (proj1 sk_names), sk_mixin, B|apply (proj1 library_names), library_mixin, M].
    destruct E as [E _]. assert (C : o_class o = 10 \/ o_class o = 11 \/ o_class o = 12 \/ o_class o = 13 \/ o_class o = 14) by lia.
    destruct C as [C|[C|[C|[C|C]]]]; rewrite C in E; do 10 (destruct l as [|l]; [discriminate E|]); lia.
  - intros c c' o o' N N' S S' E. destruct (conc_tidy c o N S) as [T [_ F]]. destruct (conc_tidy c' o' N' S') as [T' [_ F']].
    apply (render_inj sk_classes conc_name sk_names (Datatypes.S (size (conc_expr o))) _ _ (le_n _) T T') in E.
    destruct o as [k a], o' as [k' a']. unfold conc_expr in E. cbn [o_class o_attrs] in *.
    assert (Ek := f_equal (fun e => match e with RCall k _ => k | _ => 0 end) E).
    assert (Ea := f_equal (fun e => match e with RCall _ l => l | _ => [] end) E). cbn beta iota in Ek, Ea.
    apply attrs_inj in Ea; [|assumption..]. congruence.
  - intros c o N S E. destruct (conc_tidy c o N S) as [_ [B _]]. unfold conc_foreign, conc_expr in E. simpl in E.
    assert (C : o_class o = 10 \/ o_class o = 11 \/ o_class o = 12 \/ o_class o = 13 \/ o_class o = 14) by lia.
    destruct C as [C|[C|[C|[C|C]]]]; rewrite C in E; discriminate E.
Qed.

(** The default settings and others with the same cover, but another clustering, are told apart. *)
Example C75_example_tells :
  algorithm_text conc_atom conc_foreign 5 default_controls <>
  algorithm_text conc_atom conc_foreign 5 (mkcontrols default_cover (mklc "KMeans" default_cover 2 2 "single" "euclidean" 6 5 "euclidean" 5 "euclidean" 6 200)).
Proof.
  intros E. set (c' := mkcontrols default_cover (mklc "KMeans" default_cover 2 2 "single" "euclidean" 6 5 "euclidean" 5 "euclidean" 6 200)) in E.
  assert (O : offered default_controls) by (repeat split; simpl; auto 10).
  assert (O' : offered c') by (repeat split; simpl; auto 10).
  destruct (C75_made default_controls O) as [_ [_ [_ [_ [_ [_ [_ [_ T]]]]]]]]. destruct (T conc_atom conc_foreign 5 (le_n _)) as [t Et].
  rewrite Et in E.
  destruct (C75_texts_tell conc_atom conc_foreign default_controls c' (Cubes 10 None) (Cubes 10 None) NoClustering (Means 2) 5 5 t t
    conc_settings conc_clusterings O O') as [_ X]; try discriminate X; try reflexivity; try exact Et; try exact (eq_sym E); constructor; reflexivity.
Qed.
