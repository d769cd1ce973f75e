(** C57: texts tell objects apart. *)
From Coq Require Import String Ascii.
From Verif Require Import Base BaseFacts Dict DictFacts ModelCore ModelObjects SpecObjects ModelRepr SpecRepr ObjectFacts CloneProp ReprProp PropRepr SpecReprText ReprTextFacts.
Open Scope nat_scope.
Open Scope list_scope.

(** ** C57: the text of an object can be read in one way only *)

(** No two expressions have the same text: names, arguments and nested
    constructions can be read off, if the texts of the other values are single
    items, and none looks like the construction of an object of the library. *)
Theorem C57_unambiguous : forall classes class_name repr_atom repr_foreign h h' lim lim' l l' e e',
  names_differ classes class_name ->
  plain_texts classes class_name repr_atom repr_foreign h -> plain_texts classes class_name repr_atom repr_foreign h' ->
  repr_expr classes class_name repr_atom repr_foreign lim h (VRef l) = Ok e ->
  repr_expr classes class_name repr_atom repr_foreign lim' h' (VRef l') = Ok e' ->
  repr classes class_name repr_atom repr_foreign lim h (VRef l) = repr classes class_name repr_atom repr_foreign lim' h' (VRef l') ->
  e = e'.
Proof.
  intros classes class_name ra rf h h' lim lim' l l' e e' ND T T' E E' R. unfold repr in R. rewrite E, E' in R. simpl in R.
  assert (R' : render class_name e = render class_name e') by congruence. clear R. rename R' into R.
  apply (render_inj classes class_name ND (S (size e)) e e' (le_n _)); [| |exact R].
  - apply (repr_tidy classes class_name ra rf lim h (VRef l)); auto. intros P. destruct (P l eq_refl).
  - apply (repr_tidy classes class_name ra rf lim' h' (VRef l')); auto. intros P. destruct (P l' eq_refl).
Qed.
Print Assumptions C57_unambiguous.

(** Hence objects with the same text have the same class, and every parameter has
    the same text in both, printed or not. *)
Theorem C57_tells : forall classes class_name repr_atom repr_foreign h h' lim lim' l l' o o' t,
  names_differ classes class_name ->
  plain_texts classes class_name repr_atom repr_foreign h -> plain_texts classes class_name repr_atom repr_foreign h' ->
  objects_ok classes h -> objects_ok classes h' ->
  nth_error h l = Some o -> nth_error h' l' = Some o' -> mixin classes (o_class o) -> mixin classes (o_class o') ->
  repr classes class_name repr_atom repr_foreign (S lim) h (VRef l) = Ok t ->
  repr classes class_name repr_atom repr_foreign (S lim') h' (VRef l') = Ok t ->
  o_class o' = o_class o /\
  forall k v v', In (k, v) (public_entries (o_attrs o)) -> In (k, v') (public_entries (o_attrs o')) ->
    exists s, repr classes class_name repr_atom repr_foreign lim h v = Ok s /\
      repr classes class_name repr_atom repr_foreign lim' h' v' = Ok s.
Proof.
  intros classes class_name ra rf h h' lim lim' l l' o o' t ND T T' O O' N N' M M' R R'.
  pose proof R as Q. pose proof R' as Q'. unfold repr in Q, Q'.
  destruct (repr_expr classes class_name ra rf (S lim) h (VRef l)) as [e|] eqn:E; [|discriminate Q].
  destruct (repr_expr classes class_name ra rf (S lim') h' (VRef l')) as [e'|] eqn:E'; [|discriminate Q'].
  clear Q Q'. assert (X : e = e') by exact (C57_unambiguous classes class_name ra rf h h' _ _ l l' e e' ND T T' E E' (eq_trans R (eq_sym R'))). subst e'.
  destruct (O l o N M) as [d [I [D [U _]]]]. destruct (O' l' o' N' M') as [d' [I' [D' [U' _]]]].
  apply (repr_object _ _ _ _ lim h l o d e N M I) in E. destruct E as [args [L ->]].
  apply (repr_object _ _ _ _ lim' h' l' o' d' _ N' M' I') in E'. destruct E' as [args' [L' [= C <-]]].
  split; [congruence|]. rewrite C in I. assert (d' = d) by congruence. subst d'.
  intros k v v' J J'.
  destruct (lists_entries class_name ra (fun _ => None) _ _ _ _ L U k v J) as [v0 [e0 [x [G [X0 [X W]]]]]].
  destruct (lists_entries class_name ra (fun _ => None) _ _ _ _ L' U' k v' J') as [v0' [e0' [x' [G' [X0' [X' W']]]]]].
  assert (v0' = v0) by congruence. subst v0'.
  assert (P0 : plain v0) by (intros q ->; apply (proj2 (proj2 D) k q); apply (dget_entry _ string_dec_ok), G).
  unfold repr. rewrite X, X'. simpl. exists (render class_name x). split; [reflexivity|]. f_equal.
  destruct (dget String.eqb args k) as [y|].
  - destruct W as [-> _], W' as [-> _]. reflexivity.
  - destruct lim as [|lim]; [discriminate X0|]. destruct lim' as [|lim']; [discriminate X0'|].
    rewrite repr_plain in X0, X0' by exact P0. congruence.
Qed.
Print Assumptions C57_tells.

(** *** Examples *)
Local Open Scope string_scope.
Lemma library_mixin c : mixin library c <-> c <= 9.
Proof. unfold mixin, library. cbn [c_protocol]. destruct (Nat.leb_spec c 9); split; intros; try reflexivity; try lia; discriminate. Qed.
Definition simple_nameb (s : string) : bool :=
  forallb (fun c => negb (opening c) && negb (closing c) && negb (Ascii.eqb c ",") && negb (Ascii.eqb c "=")) (chars s).
Lemma simple_nameb_ok s : simple_nameb s = true -> simple_name s.
Proof.
  unfold simple_nameb, simple_name. rewrite forallb_forall, Forall_forall. intros H c I. specialize (H c I).
  destruct (opening c); [discriminate|]. destruct (closing c); [discriminate|].
  destruct (Ascii.eqb_spec c ","); [discriminate|]. destruct (Ascii.eqb_spec c "="); [discriminate|]. auto.
Qed.
Lemma library_names : names_differ library library_name.
Proof.
  split; [intros c M|intros c c' M M'].
  - apply library_mixin in M. apply simple_nameb_ok. do 10 (destruct c as [|c]; [reflexivity|]). lia.
  - apply library_mixin in M, M'.
    do 10 (destruct c as [|c]; [do 10 (destruct c' as [|c']; [intros E; first [reflexivity|discriminate E]|]); lia|]). lia.
Qed.

(** A text is no construction of an object of the library. *)
Fixpoint starts (p s : string) : bool :=
  match p, s with
  | "", _ => true
  | String a p', String b s' => Ascii.eqb a b && starts p' s'
  | _, _ => false
  end.
Lemma starts_app p r : starts p (p ++ r) = true.
Proof. induction p as [|a p IH]; simpl; [reflexivity|]. rewrite Ascii.eqb_refl. exact IH. Qed.
Lemma starts_assoc p q r : p ++ q ++ r = (p ++ q) ++ r.
Proof. induction p as [|a p IH]; simpl; [reflexivity|]. rewrite IH. reflexivity. Qed.
Definition plain_textb (s : string) : bool :=
  match level 0 s with Some 0 => forallb (fun c => negb (starts (library_name c ++ "(") s)) (seq 0 10) | _ => false end.
Lemma plain_textb_ok s : plain_textb s = true -> plain_text library library_name s.
Proof.
  unfold plain_textb, plain_text, one_item. destruct (level 0 s) as [[|d]|]; [|discriminate..].
  rewrite forallb_forall. intros H. split; [reflexivity|]. intros c r M E. apply library_mixin in M.
  specialize (H c). rewrite in_seq in H. rewrite E, starts_assoc, starts_app in H. discriminate H; lia.
Qed.
Definition textsb (h : heap) : bool :=
  forallb (fun o => if Nat.leb (o_class o) 9
                    then forallb (fun kv => simple_nameb (fst kv) && match snd kv with VRef _ => true | v => plain_textb (atom_text v) end)
                           (public_entries (o_attrs o))
                    else true) h.
Lemma textsb_ok h foreign : textsb h = true -> (forall o, In o h -> 9 < o_class o -> plain_textb (foreign o) = true) ->
  plain_texts library library_name atom_text foreign h.
Proof.
  intros H F l o N. apply nth_error_In in N. split; intros M.
  - apply library_mixin in M. unfold textsb in H. rewrite forallb_forall in H. specialize (H o N).
    rewrite (proj2 (Nat.leb_le _ _) M) in H. rewrite forallb_forall in H. intros k v I. specialize (H _ I).
    apply andb_true_iff in H. destruct H as [Hk Hv]. split; [apply simple_nameb_ok, Hk|].
    intros P. apply plain_textb_ok. cbn [snd] in Hv. destruct v; exact Hv.
  - apply plain_textb_ok, F; [exact N|]. rewrite library_mixin in M. lia.
Qed.

(** The mapper of [C57_example] and one that differs from it only in a parameter
    of the cover. *)
Definition lib_heap' : heap :=
  [ mkobj 3 [("radius", VData 2); ("metric", VStr "euclidean"); ("metric_params", VNone); ("kind", VStr "flat");
             ("leaf_capacity", VInt 4); ("leaf_radius", VNone); ("pivoting", VStr "disabled")];
    mkobj 77 [];
    mkobj 9 [("cover", VRef 0); ("clustering", VRef 1); ("failsafe", VBool false); ("verbose", VBool true); ("n_jobs", VInt 1)] ].
Example C57_unambiguous_example :
  plain_texts library library_name atom_text (fun _ => "DBSCAN()") lib_heap /\
  plain_texts library library_name atom_text (fun _ => "DBSCAN()") lib_heap' /\
  lib_repr 5 lib_heap' (VRef 2) = Ok "MapperAlgorithm(cover=BallCover(leaf_capacity=4), clustering=DBSCAN(), failsafe=False)" /\
  lib_repr 5 lib_heap (VRef 2) <> lib_repr 5 lib_heap' (VRef 2).
Proof.
  split; [apply textsb_ok; reflexivity|]. split; [apply textsb_ok; reflexivity|]. split; [vm_compute; reflexivity|].
  vm_compute. discriminate.
Qed.

(** A string that contains a comma outside of brackets can make two different
    objects look the same: the hypothesis on the texts is needed. *)
Theorem C57_tells_refuted : exists repr_atom h l l' o o' t,
  objects_ok library h /\ nth_error h l = Some o /\ nth_error h l' = Some o' /\ o_class o = 3 /\ o_class o' = 3 /\
  repr library library_name repr_atom (fun _ => "") 5 h (VRef l) = Ok t /\
  repr library library_name repr_atom (fun _ => "") 5 h (VRef l') = Ok t /\
  exists k v v', In (k, v) (public_entries (o_attrs o)) /\ In (k, v') (public_entries (o_attrs o')) /\
    repr_atom v <> repr_atom v'.
Proof.
  set (ra := fun v => match v with VData 7 => "Metric, kind='hierarchical'" | VData 8 => "Metric" | _ => atom_text v end).
  exists ra,
    [ mkobj 3 [("radius", VData 2); ("metric", VData 7); ("metric_params", VNone); ("kind", VStr "flat");
               ("leaf_capacity", VInt 1); ("leaf_radius", VNone); ("pivoting", VStr "disabled")];
      mkobj 3 [("radius", VData 2); ("metric", VData 8); ("metric_params", VNone); ("kind", VStr "hierarchical");
               ("leaf_capacity", VInt 1); ("leaf_radius", VNone); ("pivoting", VStr "disabled")] ], 0, 1.
  do 3 eexists.
  split; [|split; [reflexivity|split; [reflexivity|split; [reflexivity|split; [reflexivity|split; [vm_compute; reflexivity|split; [vm_compute; reflexivity|]]]]]]].
  - intros l o N P. destruct l as [|[|l]]; [| |destruct l; discriminate N]; injection N as <-;
      (eexists; split; [reflexivity|]; split; [apply (library_init_ok 3)|];
       split; [repeat (constructor; [simpl; intuition discriminate|]); constructor|reflexivity]).
  - exists "metric", (VData 7), (VData 8). split; [simpl; auto|]. split; [simpl; auto|]. discriminate.
Qed.
Print Assumptions C57_tells_refuted.
