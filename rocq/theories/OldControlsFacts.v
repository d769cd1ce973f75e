(** Proofs about the controls of the former app. *)
From Coq Require Import String Ascii.
From Verif Require Import Base BaseFacts Dict DictFacts ModelCore ModelObjects SpecObjects ModelRepr SpecRepr ObjectFacts CloneProp ReprProp PropRepr SpecReprText ReprTextFacts PropReprMore ModelOldControls SpecOldControls.
Open Scope nat_scope.
Open Scope list_scope.
Local Open Scope string_scope.
Local Open Scope list_scope.

(** An object of the library with settings, or with objects made before it, or one of scikit-learn. *)
Definition fine (l : nat) (o : obj) : Prop :=
  (o_class o <= 9 /\ map fst (o_attrs o) = map fst (library_init (o_class o)) /\
   Forall (fun kv => is_setting (snd kv) \/ exists l', snd kv = VRef l' /\ l' < l) (o_attrs o)) \/
  exists c, named c /\ sklearn_made c = Some o.
Definition all_fine (h : heap) : Prop := forall l o, nth_error h l = Some o -> fine l o.

Lemma all_fine_snoc h o : all_fine h -> fine (length h) o -> all_fine (h ++ [o]).
Proof.
  intros A F l x N. destruct (Nat.lt_ge_cases l (length h)).
  - rewrite nth_error_app1 in N by assumption. apply A, N.
  - assert (l < length (h ++ [o])) by (apply nth_error_Some; congruence). rewrite app_length in *. simpl in *.
    assert (l = length h) by lia. subst l. rewrite nth_error_app2, Nat.sub_diag in N by lia. injection N as <-. exact F.
Qed.
Lemma nth_end (h : heap) o : nth_error (h ++ [o]) (length h) = Some o.
Proof. rewrite nth_error_app2, Nat.sub_diag by lia. reflexivity. Qed.
Lemma nth_keep (h x : heap) l o : nth_error h l = Some o -> nth_error (h ++ x) l = Some o.
Proof. intros N. rewrite nth_error_app1; [exact N|]. apply nth_error_Some. congruence. Qed.

Lemma offered_simple s : In s (metrics ++ linkages) -> simple_name s.
Proof. intros I. simpl in I. apply simple_nameb_ok. repeat (destruct I as [<-|I]; [reflexivity|]). destruct I. Qed.
Lemma metric_simple s : In s metrics -> simple_name s.
Proof. intros I. apply offered_simple, in_or_app. auto. Qed.
Lemma linkage_simple s : In s linkages -> simple_name s.
Proof. intros I. apply offered_simple, in_or_app. auto. Qed.
Lemma flat_simple : simple_name "flat". Proof. apply simple_nameb_ok. reflexivity. Qed.
Lemma disabled_simple : simple_name "disabled". Proof. apply simple_nameb_ok. reflexivity. Qed.
Lemma proximity_simple : simple_name "proximity". Proof. apply simple_nameb_ok. reflexivity. Qed.
Lemma euclidean_simple : simple_name "euclidean". Proof. apply simple_nameb_ok. reflexivity. Qed.
#[local] Hint Resolve metric_simple linkage_simple flat_simple disabled_simple proximity_simple euclidean_simple : simple.

Ltac settings := repeat (constructor; [left; cbn [snd is_setting]; auto with simple|]); constructor.

Definition named_cover (k : cover_is) : Prop := match k with Balls _ m => simple_name m | _ => True end.
Definition named_all (c : clustering_is) : Prop := match c with ByCover k => named_cover k | _ => named c end.

Lemma value_lt h v k : cover_made h v k -> is_setting v \/ exists l, v = VRef l /\ l < length h.
Proof.
  destruct k; cbn [cover_made]; [intros ->; left; exact I|intros [l [-> N]]; right; exists l; split; [reflexivity|apply nth_error_Some; congruence]..].
Qed.
Lemma cover_keep h x v k : cover_made h v k -> cover_made (h ++ x) v k.
Proof. destruct k; cbn [cover_made]; auto; intros [l [-> N]]; exists l; (split; [reflexivity|apply nth_keep, N]). Qed.

Lemma make_cover_ok c h : offered_cover c -> all_fine h -> exists k v x, chose_cover c k /\ named_cover k /\
  make_cover c h = Ok (v, h ++ x) /\ length x <= 1 /\ cover_made (h ++ x) v k /\ all_fine (h ++ x).
Proof.
  intros [T M] A. destruct c as [ty r m n so p k]. cbn [cc_type cc_metric] in *.
  simpl in T. destruct T as [<-|[<-|[<-|[<-|[]]]]].
  - exists NoCover, VNone, []. rewrite app_nil_r. repeat split; auto. constructor. reflexivity.
  - exists (Balls r m), (VRef (length h)). eexists. split; [constructor; reflexivity|]. split; [cbn; auto with simple|]. split; [reflexivity|].
    split; [simpl; lia|].
    split; [exists (length h); split; [reflexivity|apply nth_end]|]. apply all_fine_snoc; [exact A|]. left.
    cbn. split; [lia|]. split; [reflexivity|]. settings.
  - exists (Cubes n (if so then Some p else None)), (VRef (length h)). eexists. split; [destruct so; constructor; reflexivity|].
    split; [exact I|]. split; [reflexivity|]. split; [simpl; lia|].
    split; [exists (length h); split; [reflexivity|destruct so; apply nth_end]|]. apply all_fine_snoc; [exact A|]. left.
    cbn. split; [lia|]. split; [destruct so; reflexivity|]. destruct so; settings.
  - exists (Nearest k), (VRef (length h)). eexists. split; [constructor; reflexivity|]. split; [exact I|]. split; [reflexivity|].
    split; [simpl; lia|].
    split; [exists (length h); split; [reflexivity|apply nth_end]|]. apply all_fine_snoc; [exact A|]. left.
    cbn. split; [lia|]. split; [reflexivity|]. settings.
Qed.

Lemma sklearn_case h c o : all_fine h -> named c -> sklearn_made c = Some o -> clustering_made (h ++ [o]) (VRef (length h)) c /\ all_fine (h ++ [o]).
Proof.
  intros A N S. split; [|apply all_fine_snoc; [exact A|right; eauto]].
  destruct c; try discriminate S; exists (length h); (split; [reflexivity|rewrite nth_end, S; reflexivity]).
Qed.

Lemma make_clustering_ok c h : offered_clustering c -> all_fine h -> exists k v x, chose_clustering c k /\ named_all k /\
  make_clustering c h = Ok (v, h ++ x) /\ length x <= 2 /\ clustering_made (h ++ x) v k /\ all_fine (h ++ x).
Proof.
  intros [T [C [L [M1 [M2 M3]]]]] A. destruct c as [ty cc n1 n2 li m1 e n3 m2 n4 m3 d n5].
  cbn [lc_type lc_cover lc_linkage lc_agglomerative_metric lc_dbscan_metric lc_hdbscan_metric] in *.
  simpl in T. destruct T as [<-|[<-|[<-|[<-|[<-|[<-|[<-|[]]]]]]]].
  - exists NoClustering, VNone, []. rewrite app_nil_r. repeat split; auto. constructor. reflexivity.
  - destruct (make_cover_ok cc h C A) as [k [v [x [Ck [Nk [E [Lx [Mk Fk]]]]]]]].
    exists (ByCover k), (VRef (length (h ++ x))). eexists (x ++ [_]). split; [constructor; [reflexivity|exact Ck]|].
    split; [exact Nk|]. rewrite app_assoc.
    split; [unfold make_clustering; cbn [lc_type String.eqb Ascii.eqb Bool.eqb]; cbn [lc_cover]; rewrite E; reflexivity|].
    split; [rewrite app_length; simpl; lia|].
    split; [exists (length (h ++ x)), v; split; [reflexivity|split; [apply cover_keep, Mk|apply nth_end]]|].
    apply all_fine_snoc; [exact Fk|]. left. cbn. split; [lia|]. split; [reflexivity|].
    constructor; [exact (value_lt _ _ _ Mk)|settings].
  - exists (Means n1), (VRef (length h)). eexists. split; [constructor; reflexivity|]. split; [exact I|]. split; [reflexivity|].
    split; [simpl; lia|]. apply sklearn_case; [exact A|exact I|reflexivity].
  - exists (Merging n2 li m1), (VRef (length h)). eexists. split; [constructor; reflexivity|]. split; [split; auto with simple|]. split; [reflexivity|].
    split; [simpl; lia|]. apply sklearn_case; [exact A|split; auto with simple|reflexivity].
  - exists (Dense e n3 m2), (VRef (length h)). eexists. split; [constructor; reflexivity|]. split; [cbn; auto with simple|]. split; [reflexivity|].
    split; [simpl; lia|]. apply sklearn_case; [exact A|cbn; auto with simple|reflexivity].
  - exists (Hierarchical n4 m3), (VRef (length h)). eexists. split; [constructor; reflexivity|]. split; [cbn; auto with simple|]. split; [reflexivity|].
    split; [simpl; lia|]. apply sklearn_case; [exact A|cbn; auto with simple|reflexivity].
  - exists (Affinity d n5), (VRef (length h)). eexists. split; [constructor; reflexivity|]. split; [exact I|]. split; [reflexivity|].
    split; [simpl; lia|]. apply sklearn_case; [exact A|exact I|reflexivity].
Qed.

Lemma clustering_lt h v k : clustering_made h v k -> is_setting v \/ exists l, v = VRef l /\ l < length h.
Proof.
  destruct k; cbn [clustering_made]; [intros ->; left; exact I|
    intros [l [w [-> [_ N]]]]; right; exists l; (split; [reflexivity|apply nth_error_Some; congruence])|
    intros [l [-> N]]; right; exists l; (split; [reflexivity|apply nth_error_Some; cbn in N; congruence])..].
Qed.
Lemma clustering_keep h x v k : clustering_made h v k -> clustering_made (h ++ x) v k.
Proof.
  destruct k; cbn [clustering_made]; auto.
  - intros [l [w [-> [C N]]]]. exists l, w. split; [reflexivity|]. split; [apply cover_keep, C|apply nth_keep, N].
  - intros [l [-> N]]; exists l; (split; [reflexivity|apply nth_keep, N]).
  - intros [l [-> N]]; exists l; (split; [reflexivity|apply nth_keep, N]).
  - intros [l [-> N]]; exists l; (split; [reflexivity|apply nth_keep, N]).
  - intros [l [-> N]]; exists l; (split; [reflexivity|apply nth_keep, N]).
  - intros [l [-> N]]; exists l; (split; [reflexivity|apply nth_keep, N]).
Qed.

Lemma make_algorithm_ok c : offered c -> exists k g l h, chose_cover (co_cover c) k /\ chose_clustering (co_clustering c) g /\
  named_cover k /\ named_all g /\
  make_algorithm c = Ok (l, h) /\ l <= 3 /\ algorithm_made h l k g /\ all_fine h.
Proof.
  intros [O1 O2]. destruct (make_cover_ok (co_cover c) [] O1) as [k [v [x [Ck [Nk [E [Lx [Mk Fk]]]]]]]]; [intros [|l] o N; discriminate N|].
  destruct (make_clustering_ok (co_clustering c) ([] ++ x) O2 Fk) as [g [w [y [Cg [Ng [E2 [Ly [Mg Fg]]]]]]]].
  exists k, g, (length ([] ++ x ++ y)). eexists. split; [exact Ck|]. split; [exact Cg|]. split; [exact Nk|]. split; [exact Ng|].
  split; [unfold make_algorithm; rewrite E; cbn [bind snd]; rewrite E2; reflexivity|].
  split; [simpl; rewrite app_length; lia|]. cbn [snd app] in *.
  split.
  - exists v, w. split; [apply cover_keep, cover_keep, Mk|]. split; [apply clustering_keep, Mg|]. apply nth_end.
  - apply all_fine_snoc; [exact Fg|]. left. cbn. split; [lia|]. split; [reflexivity|].
    constructor; [exact (value_lt _ _ _ (cover_keep _ y _ _ Mk))|]. constructor; [exact (clustering_lt _ _ _ Mg)|settings].
Qed.

(** What such heaps satisfy. *)
Lemma public_library c k v : c <= 9 -> In k (map fst (library_init c)) -> In (k, v) (public_entries [(k, v)]) /\ simple_name k /\ param_name k.
Proof.
  intros Hc I. assert (X : is_public k = true /\ simple_nameb k = true).
  { do 10 (destruct c as [|c]; [simpl in I; repeat (destruct I as [<-|I]; [split; reflexivity|]); destruct I|]). lia. }
  destruct X as [P S]. split; [unfold public_entries; simpl; rewrite P; left; reflexivity|]. split; [apply simple_nameb_ok, S|].
  apply in_map_iff in I. destruct I as [[k' w] [E I]]. cbn in E. subst k'. apply (proj1 (proj2 (library_init_ok c)) k w I P).
Qed.

Lemma mixin_fine l o : fine l o -> mixin library (o_class o) -> o_class o <= 9 /\ map fst (o_attrs o) = map fst (library_init (o_class o)) /\
   Forall (fun kv => is_setting (snd kv) \/ exists l', snd kv = VRef l' /\ l' < l) (o_attrs o).
Proof.
  intros [F|[c [N S]]] M; [exact F|]. apply library_mixin in M. destruct c; try discriminate S; injection S as <-; cbn in M; lia.
Qed.
Lemma foreign_fine l o : fine l o -> ~ mixin library (o_class o) -> exists c, named c /\ sklearn_made c = Some o.
Proof. intros [[L _]|F] M; [|exact F]. rewrite library_mixin in M. contradiction. Qed.

Lemma public_keys (a b : list (string * value)) : map fst a = map fst b -> map fst (public_entries a) = map fst (public_entries b).
Proof.
  revert b. induction a as [|[k v] a IH]; intros [|[k' v'] b] E; try discriminate; [reflexivity|].
  injection E as -> E. unfold public_entries in *. simpl. destruct (is_public k'); simpl; [f_equal|]; apply IH, E.
Qed.

Lemma fine_objects h : all_fine h -> objects_ok library h.
Proof.
  intros A l o N P. destruct (mixin_fine l o (A l o N) P) as [L [K _]].
  exists (library_init (o_class o)). split; [reflexivity|]. split; [apply library_init_ok|].
  split; [rewrite K; apply library_init_ok|apply public_keys, K].
Qed.

Lemma fine_heap h : all_fine h -> heap_ok library h (fun l => l).
Proof.
  intros A. constructor.
  - intros l o N. destruct (A l o N) as [[L [K F]]|[c [_ S]]].
    + split; [rewrite K; apply library_init_ok|]. intros k v I P. apply (public_library (o_class o) k v L).
      rewrite <- K. apply in_map_iff. exists (k, v). auto.
    + destruct c; try discriminate S; injection S as <-; (split; [repeat (constructor; [simpl; intuition discriminate|]); constructor|]);
        intros k v I P; simpl in I; repeat (destruct I as [I|I]; [injection I as <- _; apply name_ok; [reflexivity..|discriminate]|]); destruct I.
  - intros l k l' _ E. unfold attr in E. destruct (nth_error h l) as [o|] eqn:N; [|discriminate].
    apply (dget_entry _ string_dec_ok) in E.
    destruct (A l o N) as [[L [K F]]|[c [_ S]]].
    + rewrite Forall_forall in F. destruct (F _ E) as [G|[l2 [G B]]]; cbn in G; [destruct G|]. injection G as ->. 
      split; [|exact B]. apply (Nat.lt_trans _ l); [exact B|]. apply nth_error_Some. congruence.
    + destruct c; try discriminate S; injection S as <-; simpl in E; intuition discriminate.
  - intros l o names N E. unfold library in E. cbn in E. destruct (Nat.leb (o_class o) 9); [discriminate|]. injection E as <-.
    split; [constructor|intros k []].
Qed.

Section Texts.
Variable repr_atom : value -> string.
Variable repr_foreign : obj -> string.
Hypothesis ST : settings_tell repr_atom.
Hypothesis CT : clusterings_tell repr_atom repr_foreign.
Notation repr := (repr library library_name repr_atom repr_foreign).

Lemma fine_texts h : all_fine h -> plain_texts library library_name repr_atom repr_foreign h.
Proof.
  intros A l o N. split; intros M.
  - destruct (mixin_fine l o (A l o N) M) as [L [K F]]. intros k v I. unfold public_entries in I. apply filter_In in I. destruct I as [I _].
    split; [apply (public_library (o_class o) k v L); rewrite <- K; apply in_map_iff; exists (k, v); auto|].
    intros P. rewrite Forall_forall in F. destruct (F _ I) as [G|[l' [G _]]]; [apply ST, G|]. cbn in G. destruct (P l' G).
  - destruct (foreign_fine l o (A l o N) M) as [c [Nc S]]. exact (proj1 CT c o Nc S).
Qed.

Lemma text_plain lim h v s : is_setting v -> repr lim h v = Ok s -> s = repr_atom v.
Proof.
  intros S E. destruct lim as [|lim]; [discriminate|].
  unfold ModelRepr.repr in E. rewrite repr_plain in E by (intros l ->; exact S). cbn in E. congruence.
Qed.

(** The text of an object of the library is none of a is_setting. *)
Lemma text_object lim h l o s : all_fine h -> nth_error h l = Some o -> o_class o <= 9 -> repr lim h (VRef l) = Ok s ->
  exists r, s = (library_name (o_class o) ++ "(" ++ r)%string.
Proof.
  intros A N L E. destruct lim as [|lim]; [discriminate|].
  destruct (C57_text library library_name repr_atom repr_foreign lim h l o _ s N (proj2 (library_mixin _) L) eq_refl E) as [ts [_ ->]].
  eexists. reflexivity.
Qed.

Lemma text_foreign lim h l o s : nth_error h l = Some o -> 9 < o_class o -> repr lim h (VRef l) = Ok s -> s = repr_foreign o.
Proof.
  intros N L E. destruct lim as [|lim]; [discriminate|]. unfold ModelRepr.repr in E. simpl in E. unfold rd in E. rewrite N in E. simpl in E.
  unfold library in E. cbn [c_protocol] in E. rewrite (proj2 (Nat.leb_gt _ _)) in E by lia. cbn in E. congruence.
Qed.

Lemma tells h h' lim lim' l l' o o' s : all_fine h -> all_fine h' -> nth_error h l = Some o -> nth_error h' l' = Some o' ->
  o_class o <= 9 -> o_class o' <= 9 -> repr lim h (VRef l) = Ok s -> repr lim' h' (VRef l') = Ok s ->
  o_class o' = o_class o /\ forall k v v', In (k, v) (o_attrs o) -> In (k, v') (o_attrs o') ->
    exists m m' t, repr m h v = Ok t /\ repr m' h' v' = Ok t.
Proof.
  intros A A' N N' L L' E E'. destruct lim as [|lim]; [discriminate|]. destruct lim' as [|lim']; [discriminate|].
  destruct (C57_tells library library_name repr_atom repr_foreign h h' lim lim' l l' o o' s library_names (fine_texts h A) (fine_texts h' A')
    (fine_objects h A) (fine_objects h' A') N N' (proj2 (library_mixin _) L) (proj2 (library_mixin _) L') E E') as [C T].
  split; [exact C|]. intros k v v' I I'.
  destruct (mixin_fine l o (A l o N) (proj2 (library_mixin _) L)) as [_ [K _]].
  assert (Pk : is_public k = true).
  { assert (J : In k (map fst (library_init (o_class o)))) by (rewrite <- K; apply in_map_iff; exists (k, v); auto).
    destruct (public_library (o_class o) k v L J) as [X _]. unfold public_entries in X. simpl in X. destruct (is_public k); [reflexivity|destruct X]. }
  destruct (T k v v') as [t [Q Q']]; [apply filter_In; auto..|]. exists lim, lim', t. auto.
Qed.

Lemma plain_tells h h' m m' v v' t : is_setting v -> is_setting v' -> repr m h v = Ok t -> repr m' h' v' = Ok t -> v = v'.
Proof. intros S S' E E'. apply text_plain in E, E'; auto. apply ST; auto. congruence. Qed.

Lemma none_object h h' m m' l o t : all_fine h -> nth_error h l = Some o -> o_class o <= 9 ->
  repr m h (VRef l) = Ok t -> repr m' h' VNone = Ok t -> False.
Proof.
  intros A N L E E'. apply text_plain in E'; [|exact I]. destruct (text_object m h l o t A N L E) as [r X].
  destruct (proj1 ST VNone I) as [_ Q]. apply (Q (o_class o) r); [apply library_mixin, L|congruence].
Qed.

Ltac one T key v v' H :=
  assert (H : v = v');
  [ let m := fresh in let m' := fresh in let t := fresh in let Q := fresh in let Q' := fresh in
    destruct (T key v v') as [m [m' [t [Q Q']]]]; [simpl; tauto|simpl; tauto|];
    refine (plain_tells _ _ _ _ v v' _ _ _ Q Q'); simpl; auto | ].

Lemma cover_tells h h' m m' v v' k k' t : all_fine h -> all_fine h' -> named_cover k -> named_cover k' ->
  cover_made h v k -> cover_made h' v' k' ->
  repr m h v = Ok t -> repr m' h' v' = Ok t -> k = k'.
Proof.
  intros A A' Nk Nk' C C' E E'.
  destruct k as [|r me|n p|j]; destruct k' as [|r' me'|n' p'|j']; cbn [cover_made] in C, C';
    first [subst v|destruct C as [l [-> N]]]; first [subst v'|destruct C' as [l' [-> N']]]; try reflexivity;
    try (exfalso; eapply (none_object h h' m m'); [exact A|exact N| |exact E|exact E']; cbn; lia);
    try (exfalso; eapply (none_object h' h m' m); [exact A'|exact N'| |exact E'|exact E]; cbn; lia);
    (destruct (tells h h' m m' l l' _ _ t A A' N N') as [Q T]; [cbn; lia|cbn; lia|exact E|exact E'|]; cbn in Q; try discriminate Q; cbn [o_attrs] in T).
  - one T "radius" (VData r) (VData r') H1. one T "metric" (VStr me) (VStr me') H2. congruence.
  - one T "n_intervals" (VInt n) (VInt n') H1.
    assert (H2 : match p with Some p => VData p | None => VNone end = match p' with Some p => VData p | None => VNone end).
    { destruct (T "overlap_frac" (match p with Some p => VData p | None => VNone end) (match p' with Some p => VData p | None => VNone end))
        as [q [q' [s [Q1 Q2]]]]; [simpl; tauto|simpl; tauto|].
      refine (plain_tells _ _ _ _ _ _ _ _ _ Q1 Q2); [destruct p; exact I|destruct p'; exact I]. }
    destruct p, p'; congruence.
  - one T "neighbors" (VInt j) (VInt j') H1. congruence.
Qed.

(** Kinds of clusterings: none, a cover, or one of scikit-learn. *)
Definition simple_clustering (g : clustering_is) : Prop := exists o, sklearn_made g = Some o.
Lemma kinds g : g = NoClustering \/ (exists k, g = ByCover k) \/ simple_clustering g.
Proof. destruct g; [auto|right; left; eauto|right; right; eexists; reflexivity..]. Qed.
Lemma sk_inj g g' o : sklearn_made g = Some o -> sklearn_made g' = Some o -> g = g'.
Proof. destruct g, g'; cbn [sklearn_made]; congruence. Qed.
Lemma sk_class g o : sklearn_made g = Some o -> 9 < o_class o.
Proof. destruct g; cbn [sklearn_made]; try discriminate; intros [= <-]; cbn; lia. Qed.
Lemma sk_made h v g o : sklearn_made g = Some o -> clustering_made h v g -> exists l, v = VRef l /\ nth_error h l = Some o.
Proof. intros S. destruct g; try discriminate S; cbn [clustering_made]; intros [l [-> N]]; exists l; split; auto; rewrite N; exact S. Qed.
Lemma sk_named g o : sklearn_made g = Some o -> named_all g -> named g.
Proof. destruct g; try discriminate; auto. Qed.

Lemma clustering_tells h h' m m' v v' g g' t : all_fine h -> all_fine h' -> named_all g -> named_all g' ->
  clustering_made h v g -> clustering_made h' v' g' ->
  repr m h v = Ok t -> repr m' h' v' = Ok t -> g = g'.
Proof.
  assert (NS : forall h h' m m' v g o t, named g -> sklearn_made g = Some o -> clustering_made h v g ->
    repr m h v = Ok t -> repr m' h' VNone = Ok t -> False).
  { intros h0 h0' n n' w f o s Nf S M E E'. destruct (sk_made _ _ _ _ S M) as [l [-> N]].
    apply (text_foreign _ _ _ _ _ N (sk_class _ _ S)) in E. apply text_plain in E'; [|exact I].
    apply (proj2 (proj2 CT) f o Nf S). congruence. }
  assert (MS : forall h h' m m' v w g o t k, all_fine h' -> named g -> sklearn_made g = Some o -> clustering_made h v g ->
    clustering_made h' w (ByCover k) -> repr m h v = Ok t -> repr m' h' w = Ok t -> False).
  { intros h0 h0' n n' w w' f o s k A' Nf S M [l' [u [-> [_ N']]]] E E'. destruct (sk_made _ _ _ _ S M) as [l [-> N]].
    apply (text_foreign _ _ _ _ _ N (sk_class _ _ S)) in E. apply (text_object _ _ _ _ _ A' N') in E'; [|cbn; lia]. destruct E' as [r E'].
    destruct (proj1 CT f o Nf S) as [_ Q]. apply (Q 8 r); [reflexivity|]. rewrite <- E, E'. reflexivity. }
  intros A A' Ng Ng' C C' E E'.
  destruct (kinds g) as [->|[[k ->]|[o S]]]; destruct (kinds g') as [->|[[k' ->]|[o' S']]].
  - reflexivity.
  - exfalso. cbn [clustering_made] in C, C'. subst v. destruct C' as [l' [w [-> [_ N']]]].
    eapply (none_object h' h m' m l'); [exact A'|exact N'| |exact E'|exact E]. cbn. lia.
  - exfalso. cbn [clustering_made] in C. subst v. exact (NS h' h m' m v' g' o' t (sk_named _ _ S' Ng') S' C' E' E).
  - exfalso. cbn [clustering_made] in C, C'. subst v'. destruct C as [l [w [-> [_ N]]]].
    eapply (none_object h h' m m' l); [exact A|exact N| |exact E|exact E']. cbn. lia.
  - f_equal. destruct C as [l [w [-> [C N]]]]. destruct C' as [l' [w' [-> [C' N']]]].
    destruct (tells h h' m m' l l' _ _ t A A' N N') as [_ T]; [cbn; lia|cbn; lia|exact E|exact E'|]. cbn [o_attrs] in T.
    destruct (T "cover" w w') as [n [n' [s [Q Q']]]]; [left; reflexivity|left; reflexivity|].
    exact (cover_tells h h' n n' w w' k k' s A A' Ng Ng' C C' Q Q').
  - exfalso. exact (MS h' h m' m v' v g' o' t k A (sk_named _ _ S' Ng') S' C' C E' E).
  - exfalso. cbn [clustering_made] in C'. subst v'. exact (NS h h' m m' v g o t (sk_named _ _ S Ng) S C E E').
  - exfalso. exact (MS h h' m m' v v' g o t k' A' (sk_named _ _ S Ng) S C C' E E').
  - destruct (sk_made _ _ _ _ S C) as [l [-> N]]. destruct (sk_made _ _ _ _ S' C') as [l' [-> N']].
    apply (text_foreign _ _ _ _ _ N (sk_class _ _ S)) in E. apply (text_foreign _ _ _ _ _ N' (sk_class _ _ S')) in E'.
    assert (X : o = o') by (apply (proj1 (proj2 CT) g g'); eauto using sk_named; congruence). subst o'.
    exact (sk_inj _ _ _ S S').
Qed.

Lemma algorithm_tells h h' m m' l l' k k' g g' t : all_fine h -> all_fine h' -> named_cover k -> named_cover k' -> named_all g -> named_all g' ->
  algorithm_made h l k g -> algorithm_made h' l' k' g' ->
  repr m h (VRef l) = Ok t -> repr m' h' (VRef l') = Ok t -> k = k' /\ g = g'.
Proof.
  intros A A' Nk Nk' Ng Ng' [v [w [C [D N]]]] [v' [w' [C' [D' N']]]] E E'.
  destruct (tells h h' m m' l l' _ _ t A A' N N') as [_ T]; [cbn; lia|cbn; lia|exact E|exact E'|]. cbn [o_attrs] in T.
  destruct (T "cover" v v') as [n [n' [s [Q Q']]]]; [left; reflexivity|left; reflexivity|].
  destruct (T "clustering" w w') as [n2 [n2' [s2 [Q2 Q2']]]]; [right; left; reflexivity|right; left; reflexivity|].
  split; [exact (cover_tells h h' n n' v v' k k' s A A' Nk Nk' C C' Q Q')|exact (clustering_tells h h' n2 n2' w w' g g' s2 A A' Ng Ng' D D' Q2 Q2')].
Qed.
End Texts.
