(** C57: the texts of objects. *)
From Coq Require Import String.
From Verif Require Import Base BaseFacts Dict DictFacts ModelCore ModelObjects SpecObjects ModelRepr SpecRepr ObjectFacts CloneProp ReprProp.
Open Scope nat_scope.
Open Scope list_scope.

(** ** C57: the text of an object *)

(** It is the name of the class and, in parentheses, the public parameters in
    order whose text is not that of the default. *)
Theorem C57_text : forall classes class_name repr_atom repr_foreign lim h l o d t,
  nth_error h l = Some o -> c_protocol (classes (o_class o)) = Mixin -> c_init (classes (o_class o)) = Some d ->
  repr classes class_name repr_atom repr_foreign (S lim) h (VRef l) = Ok t ->
  exists ts, pieces (fun v s => repr classes class_name repr_atom repr_foreign lim h v = Ok s) d (o_attrs o) ts /\
    t = (class_name (o_class o) ++ "(" ++ String.concat ", " ts ++ ")")%string.
Proof.
  intros classes class_name repr_atom repr_foreign lim h l o d t N P I E. unfold repr in E.
  destruct (repr_expr classes class_name repr_atom repr_foreign (S lim) h (VRef l)) as [e|x] eqn:R; [|discriminate].
  injection E as <-. apply (repr_object classes class_name repr_atom repr_foreign lim h l o d e N P I) in R.
  destruct R as [args [L ->]]. eexists. split; [apply lists_pieces, L|]. reflexivity.
Qed.
Print Assumptions C57_text.

(** It exists, without hitting the recursion limit, when references have no cycle. *)
Theorem C57_total : forall classes class_name repr_atom repr_foreign h rank l lim,
  heap_ok classes h rank -> objects_ok classes h -> l < length h -> S (rank l) < lim ->
  exists t, repr classes class_name repr_atom repr_foreign lim h (VRef l) = Ok t.
Proof.
  intros classes class_name repr_atom repr_foreign h rank l lim W B Hl Hr.
  destruct (repr_total classes class_name repr_atom repr_foreign h rank W B lim (VRef l)) as [e E]; [auto|].
  exists (render class_name e). unfold repr. rewrite E. reflexivity.
Qed.
Print Assumptions C57_total.

(** A clone has the text of the original. *)
Theorem C57_clone_text : forall classes class_name repr_atom repr_foreign h rank l o lim,
  heap_ok classes h rank -> objects_ok classes h ->
  nth_error h l = Some o -> c_protocol (classes (o_class o)) = Mixin -> S (rank l) < lim ->
  exists l' h' t, clone classes lim h l = Ok (l', h') /\
    repr classes class_name repr_atom repr_foreign lim h (VRef l) = Ok t /\
    repr classes class_name repr_atom repr_foreign lim h' (VRef l') = Ok t.
Proof.
  intros classes class_name repr_atom repr_foreign h rank l o lim W B N P Hl.
  destruct (B l o N P) as [d [I [D [U E]]]].
  assert (Hk : forall k, In k (map fst (o_attrs o)) <-> exists v, attr_of o k = Some v).
  { intro k. symmetry. apply (dget_in _ string_dec_ok). }
  assert (Hp : forall k a, In k (map fst (public_entries a)) <-> In k (map fst a) /\ is_public k = true).
  { intros k a. rewrite !in_map_iff. split.
    - intros [[x y] [<- J]]. apply filter_In in J. destruct J. split; [exists (x, y); auto|assumption].
    - intros [[[x y] [<- J]] Q]. exists (x, y). split; [reflexivity|]. apply filter_In. auto. }
  assert (PC : params_of_class classes o d).
  { unfold params_of_class. rewrite P. intros k Q. rewrite <- Hk. split; intro J.
    - assert (X : In k (map fst (public_entries (o_attrs o)))) by (apply Hp; auto). rewrite E in X. apply Hp in X. tauto.
    - assert (X : In k (map fst (public_entries d))) by (apply Hp; auto). rewrite <- E in X. apply Hp in X. tauto. }
  destruct (clone_spec classes h rank l o d W N I D PC lim) as [o' [Ec [[C [K [V _]]] _]]]; [lia|].
  destruct (repr_total classes class_name repr_atom repr_foreign h rank W B lim (VRef l)) as [e R].
  { split; [apply nth_error_Some; congruence|exact Hl]. }
  exists (length h), (h ++ [o']), (render class_name e). split; [exact Ec|]. split; [unfold repr; rewrite R; reflexivity|].
  destruct lim as [|lim]; [lia|]. unfold repr.
  rewrite (repr_same_public classes class_name repr_atom repr_foreign lim h (h ++ [o']) l (length h) o o' N) with (e := e);
    [reflexivity|rewrite nth_error_app2, Nat.sub_diag by lia; reflexivity|exact C|exact P| | |exact R].
  - assert (Nd' : NoDup (map fst (o_attrs o'))) by (rewrite K; apply D).
    apply public_same; [|exact Nd'|exact U|].
    + rewrite E. clear - K. revert K. generalize (o_attrs o') as a. induction d as [|[x y] d IH]; intros [|[x' y'] a] K; try discriminate; [reflexivity|].
      simpl in K. injection K as -> K. simpl. destruct (is_public x); simpl; rewrite (IH _ K); reflexivity.
    + intros k Q. destruct (dget String.eqb (o_attrs o) k) as [v|] eqn:G.
      * change (attr_of o' k = Some v). rewrite V; [exact G|]. exists o. split; [exact N|]. rewrite P.
        split; [|exists v; exact G]. destruct (ho_names _ _ _ W l o N) as [_ X]. apply (X k v); [|exact Q].
        apply (dget_entry _ string_dec_ok), G.
      * apply (dget_none _ string_dec_ok). unfold dkeys. rewrite K. intro J.
        unfold params_of_class in PC. rewrite P in PC. apply (PC k Q) in J. destruct J as [v J]. unfold attr_of in J. congruence.
  - intros v f Rv. apply repr_frame, Rv.
Qed.
Print Assumptions C57_clone_text.

(** Attributes that are no parameters do not show: fitting changes no text. *)
Theorem C57_private : forall classes class_name repr_atom repr_foreign h h' lim v,
  same_public classes h h' ->
  repr classes class_name repr_atom repr_foreign lim h' v = repr classes class_name repr_atom repr_foreign lim h v.
Proof. intros. unfold repr. rewrite (repr_private classes class_name repr_atom repr_foreign lim h h' H v). reflexivity. Qed.
Print Assumptions C57_private.

(** Evaluating the text makes a new object of the same class with the same
    parameter names, whose parameters have the same texts, hence with the same
    text. A parameter that is no object, is read back as itself and is not
    confused with the default, has the same value. Existing objects do not change. *)
Theorem C57_evaluates : forall classes class_name repr_atom repr_foreign read_atom h l o lim e,
  objects_ok classes h -> readable classes repr_atom repr_foreign read_atom h ->
  nth_error h l = Some o -> c_protocol (classes (o_class o)) = Mixin ->
  repr_expr classes class_name repr_atom repr_foreign (S lim) h (VRef l) = Ok e ->
  exists l' new o', eval classes read_atom h e = Ok (VRef l', h ++ new) /\
    nth_error (h ++ new) l' = Some o' /\ o_class o' = o_class o /\
    map fst (public_entries (o_attrs o')) = map fst (public_entries (o_attrs o)) /\
    repr classes class_name repr_atom repr_foreign (S lim) (h ++ new) (VRef l') =
      repr classes class_name repr_atom repr_foreign (S lim) h (VRef l) /\
    forall k v, is_public k = true -> attr_of o k = Some v ->
      exists v', attr_of o' k = Some v' /\
        repr classes class_name repr_atom repr_foreign lim (h ++ new) v' = repr classes class_name repr_atom repr_foreign lim h v /\
        (plain v -> read_atom (repr_atom v) = Some (inl v) ->
         (forall d v0, c_init (classes (o_class o)) = Some d -> dget String.eqb d k = Some v0 -> repr_atom v = repr_atom v0 -> v = v0) ->
         v' = v).
Proof.
  intros classes class_name repr_atom repr_foreign read_atom h l o lim e B Rd N P R.
  destruct (eval_repr classes class_name repr_atom repr_foreign read_atom h B Rd (S lim) (VRef l) e R) with (x := @nil obj)
    as [v' [y [E [R' [_ M]]]]].
  { intro Pl. destruct (Pl l eq_refl). }
  rewrite !app_nil_r in *. destruct (M l o eq_refl N P) as [l' [-> [o1 [o' [N1 [N' [C [K A]]]]]]]].
  assert (o1 = o) by congruence. subst o1. exists l', y, o'. split; [exact E|]. split; [exact N'|]. split; [exact C|]. split; [exact K|].
  split; [unfold repr; rewrite R', R; reflexivity|]. intros k v Pk Ak.
  destruct (A k v Pk Ak) as [w [f [f' [Aw [F [F' [T X]]]]]]]. exists w. split; [exact Aw|].
  split; [|exact X]. simpl in F, F'. unfold repr. rewrite F, F'. simpl. rewrite T. reflexivity.
Qed.
Print Assumptions C57_evaluates.

(** A public attribute that the constructor does not set makes it fail: there is no text. *)
Theorem C57_extra_attribute : forall classes class_name repr_atom repr_foreign lim h l o d k v t,
  nth_error h l = Some o -> c_protocol (classes (o_class o)) = Mixin -> c_init (classes (o_class o)) = Some d ->
  In (k, v) (o_attrs o) -> is_public k = true -> ~ In k (map fst d) ->
  repr classes class_name repr_atom repr_foreign lim h (VRef l) <> Ok t.
Proof.
  intros classes class_name repr_atom repr_foreign lim h l o d k v t N P I Iv Pk Nk E.
  destruct lim as [|lim]; [discriminate|].
  destruct (C57_text classes class_name repr_atom repr_foreign lim h l o d t N P I E) as [ts [Pc _]].
  clear - Pc Iv Pk Nk. induction Pc as [|j w kvs ts Q Pc IH|j w v0 s kvs ts Q G T0 T Pc IH|j w v0 s0 s kvs ts Q G T0 T X Pc IH];
    [destruct Iv| | |]; destruct Iv as [[= -> ->]|Iv]; try congruence; try (apply IH; assumption);
    apply Nk; apply (dget_in _ string_dec_ok); eauto.
Qed.
Print Assumptions C57_extra_attribute.

(** *** Examples: the classes of the library. *)
Local Open Scope string_scope.
Definition atom_text (v : value) : string :=
  match v with
  | VNone => "None"
  | VBool true => "True"
  | VBool false => "False"
  | VInt 1 => "1"
  | VInt 4 => "4"
  | VStr s => "'" ++ s ++ "'"
  | VData 2 => "1.0"
  | VData 3 => "1.5"
  | VData 0 => "0.0"
  | _ => "?"
  end.
Definition atom_read (s : string) : option (value + obj) :=
  if String.eqb s "DBSCAN()" then Some (inr (mkobj 77 []))
  else fold_right (fun v r => if String.eqb s (atom_text v) then Some (inl v) else r) None
    [VNone; VBool true; VBool false; VInt 1; VInt 4; VStr "flat"; VStr "disabled"; VStr "euclidean"; VStr "standard";
     VData 2; VData 3; VData 0].
Definition lib_heap : heap :=
  [ mkobj 77 [("labels_", VLabels [0; 1]%Z)];
    mkobj 3 [("radius", VData 3); ("metric", VStr "euclidean"); ("metric_params", VNone); ("kind", VStr "flat");
             ("leaf_capacity", VInt 4); ("leaf_radius", VNone); ("pivoting", VStr "disabled"); ("_vptree", VData 8)];
    mkobj 9 [("cover", VRef 1); ("clustering", VRef 0); ("failsafe", VBool false); ("verbose", VBool true); ("n_jobs", VInt 1);
             ("graph_", VData 9); ("n_features_in_", VInt 4)] ].
Definition lib_repr := repr library library_name atom_text (fun _ => "DBSCAN()").
Example C57_example :
  lib_repr 5 lib_heap (VRef 2) = Ok "MapperAlgorithm(cover=BallCover(radius=1.5, leaf_capacity=4), clustering=DBSCAN(), failsafe=False)" /\
  (do r <- clone library 5 lib_heap 2; lib_repr 5 (snd r) (VRef (fst r))) = lib_repr 5 lib_heap (VRef 2) /\
  (do e <- repr_expr library library_name atom_text (fun _ => "DBSCAN()") 5 lib_heap (VRef 2);
   do r <- eval library atom_read lib_heap e; Ok (fst r, skipn 3 (snd r))) =
  Ok (VRef 5,
    [ mkobj 3 [("radius", VData 3); ("metric", VStr "euclidean"); ("metric_params", VNone); ("kind", VStr "flat");
               ("leaf_capacity", VInt 4); ("leaf_radius", VNone); ("pivoting", VStr "disabled")];
      mkobj 77 [];
      mkobj 9 [("cover", VRef 3); ("clustering", VRef 4); ("failsafe", VBool false); ("verbose", VBool true); ("n_jobs", VInt 1)] ]).
Proof. repeat split; vm_compute; reflexivity. Qed.

Lemma name_ok k : partition_ k = (k, None) -> starts_us k = false -> ends_us k = false -> k <> EmptyString -> param_name k.
Proof.
  intros P S E N. split; [exact N|]. split; [|split].
  - intros a b ->. revert P. clear. revert b. induction a as [|c a IH]; intros b P.
    + simpl in P. discriminate.
    + destruct a as [|d a].
      * simpl in P. destruct (Ascii.eqb c underscore); discriminate.
      * change (partition_ (String c (String d a) ++ "__" ++ b)) with
          (if Ascii.eqb c underscore && Ascii.eqb d underscore then (EmptyString, Some (a ++ "__" ++ b))
           else let '(o, i) := partition_ (String d a ++ "__" ++ b) in (String c o, i)) in P.
        destruct (Ascii.eqb c underscore && Ascii.eqb d underscore); [discriminate|].
        destruct (partition_ (String d a ++ "__" ++ b)) as [o i] eqn:Q. injection P as Po ->. apply (IH b).
        rewrite Q. f_equal. exact Po.
  - intros r ->. discriminate S.
  - intros r ->. assert (X : ends_us (r ++ "_") = true) by (apply ends_us_spec; eauto). congruence.
Qed.

(** The constructors of the library leave unique ordinary names and no objects. *)
Lemma library_init_ok c : init_ok (library_init c).
Proof.
  do 10 (destruct c as [|c]; [split; [repeat (constructor; [simpl; intuition discriminate|]); constructor|split;
    [intros k v I _; simpl in I; repeat (destruct I as [I|I]; [injection I as <- _; apply name_ok; [reflexivity..|discriminate]|]); destruct I
    |intros k l I; simpl in I; intuition discriminate]]|]).
  split; [constructor|split; [intros k v []|intros k l []]].
Qed.

Example C57_hypotheses_met :
  heap_ok library lib_heap (fun l => if Nat.eqb l 2 then 1 else 0) /\ objects_ok library lib_heap /\
  readable library atom_text (fun _ => "DBSCAN()") atom_read lib_heap /\
  same_public library lib_heap (map (fun o => mkobj (o_class o) (firstn 7 (o_attrs o))) lib_heap).
Proof.
  split; [|split; [|split]].
  - constructor.
    + intros l o N. destruct l as [|[|[|l]]]; [| | |destruct l; discriminate N]; injection N as <-;
        (split; [repeat (constructor; [simpl; intuition discriminate|]); constructor|]);
        intros k v I P; simpl in I;
        repeat (destruct I as [I|I]; [injection I as <- _; first [discriminate P|apply name_ok; [reflexivity..|discriminate]]|]); destruct I.
    + intros l k l' _ A. unfold attr in A. destruct (nth_error lib_heap l) as [o|] eqn:N; [|discriminate].
      apply (dget_entry _ string_dec_ok) in A.
      destruct l as [|[|[|l]]]; [| | |destruct l; discriminate N]; injection N as <-; simpl in A;
        repeat (destruct A as [A|A]; [first [discriminate A|injection A as _ <-; simpl; lia]|]); destruct A.
    + intros l o names N E. destruct l as [|[|[|l]]]; [| | |destruct l; discriminate N]; injection N as <-; try discriminate E.
      injection E as <-. split; [constructor|]. intros k [].
  - intros l o N P. destruct l as [|[|[|l]]]; [| | |destruct l; discriminate N]; injection N as <-; try discriminate P;
      (eexists; split; [reflexivity|]; split; [apply (library_init_ok 3) || apply (library_init_ok 9)|];
       split; [repeat (constructor; [simpl; intuition discriminate|]); constructor|reflexivity]).
  - intros l o N. destruct l as [|[|[|l]]]; [| | |destruct l; discriminate N]; injection N as <-; (split; [intro P; try discriminate P|intro P]).
    + exists (mkobj 77 []). split; [discriminate|]. split; reflexivity.
    + intros k v I _. simpl in I.
      repeat (destruct I as [I|I]; [injection I as <- <-; eexists; split; [|split; [vm_compute; reflexivity|reflexivity]]; discriminate|]). destruct I.
    + exfalso. apply P. reflexivity.
    + intros k v I Pl. simpl in I.
      repeat (destruct I as [I|I]; [injection I as <- <-; first [exfalso; exact (Pl _ eq_refl)|
        eexists; split; [|split; [vm_compute; reflexivity|reflexivity]]; discriminate]|]). destruct I.
    + exfalso. apply P. reflexivity.
  - intro l. destruct l as [|[|[|l]]]; simpl; [repeat split; auto; intro X; destruct (X eq_refl)..|destruct l; exact I].
Qed.
