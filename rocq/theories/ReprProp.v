(** Proofs about [__repr__]. *)
From Coq Require Import String.
From Verif Require Import Base BaseFacts Dict DictFacts ModelCore ModelObjects SpecObjects ModelRepr SpecRepr ObjectFacts.
Open Scope nat_scope.
Open Scope list_scope.

Section Repr.
Variable classes : nat -> class.
Variable class_name : nat -> string.
Variable repr_atom : value -> string.
Variable repr_foreign : obj -> string.
Variable read_atom : string -> option (value + obj).

Notation render := (render class_name).
Notation repr_expr := (repr_expr classes class_name repr_atom repr_foreign).
Notation repr := (repr classes class_name repr_atom repr_foreign).
Notation eval := (eval classes read_atom).
Notation construct := (construct classes).

Section Args.
Variable text : value -> res rexpr.
Variable d : list (string * value).

Definition arg_step (kv : string * value) (args : list (string * rexpr)) : res (list (string * rexpr)) :=
  let '(k, v) := kv in
  if is_public k then
    match dget String.eqb d k with
    | None => Err AttributeError
    | Some v_default =>
        do e_default <- text v_default;
        do e <- text v;
        Ok (if String.eqb (render e) (render e_default) then args else args ++ [(k, e)])
    end
  else Ok args.

Inductive lists : list (string * value) -> list (string * rexpr) -> Prop :=
| li_nil : lists [] []
| li_private k v kvs args : is_public k = false -> lists kvs args -> lists ((k, v) :: kvs) args
| li_default k v v0 e0 e kvs args : is_public k = true -> dget String.eqb d k = Some v0 ->
    text v0 = Ok e0 -> text v = Ok e -> render e = render e0 -> lists kvs args -> lists ((k, v) :: kvs) args
| li_shown k v v0 e0 e kvs args : is_public k = true -> dget String.eqb d k = Some v0 ->
    text v0 = Ok e0 -> text v = Ok e -> render e <> render e0 -> lists kvs args ->
    lists ((k, v) :: kvs) ((k, e) :: args).

Lemma args_lists kvs : forall acc r, for_each kvs arg_step acc = Ok r <-> exists args, lists kvs args /\ r = acc ++ args.
Proof.
  induction kvs as [|[k v] kvs IH]; intros acc r; simpl.
  - split.
    + intros [= <-]. exists []. split; [constructor|]. rewrite app_nil_r. reflexivity.
    + intros [args [L ->]]. inversion L; subst. rewrite app_nil_r. reflexivity.
  - destruct (is_public k) eqn:P.
    2:{ simpl. rewrite IH. split; intros [args [L E]]; exists args; (split; [|exact E]).
        - constructor; assumption.
        - inversion L; subst; congruence. }
    destruct (dget String.eqb d k) as [v0|] eqn:D.
    2:{ simpl. split; [discriminate|]. intros [args [L _]]. inversion L; subst; congruence. }
    destruct (text v0) as [e0|x] eqn:E0.
    2:{ simpl. split; [discriminate|]. intros [args [L _]]. inversion L; subst; congruence. }
    simpl. destruct (text v) as [e|x] eqn:E.
    2:{ simpl. split; [discriminate|]. intros [args [L _]]. inversion L; subst; congruence. }
    simpl. destruct (String.eqb (render e) (render e0)) eqn:Q.
    + apply String.eqb_eq in Q. rewrite IH. split; intros [args [L R]].
      * exists args. split; [|exact R]. eapply li_default; eauto.
      * inversion L; subst; try congruence. eauto.
    + apply String.eqb_neq in Q. rewrite IH. split; intros [args [L R]].
      * exists ((k, e) :: args). split; [eapply li_shown; eauto|]. rewrite <- app_assoc in R. exact R.
      * inversion L; subst; try congruence. exists args0. split; [assumption|]. rewrite <- app_assoc. simpl.
        do 3 f_equal. congruence.
Qed.

Lemma args_lists0 kvs r : for_each kvs arg_step [] = Ok r <-> lists kvs r.
Proof.
  rewrite args_lists. split.
  - intros [args [L ->]]. exact L.
  - intro L. exists r. auto.
Qed.

Lemma lists_public kvs args : lists (public_entries kvs) args <-> lists kvs args.
Proof.
  split.
  - revert args. induction kvs as [|[k v] kvs IH]; intros args; simpl; [auto|].
    destruct (is_public k) eqn:P; [|constructor; auto].
    intro L. inversion L; subst; try congruence; [eapply li_default|eapply li_shown]; eauto.
  - induction 1; simpl; try rewrite H; [constructor|assumption|eapply li_default; eauto|eapply li_shown; eauto].
Qed.

(** The arguments are determined by which names have one. *)
Definition pick (f : string -> option rexpr) (names : list string) : list (string * rexpr) :=
  flat_map (fun k => match f k with Some e => [(k, e)] | None => [] end) names.

Lemma pick_ext f g names : (forall k, In k names -> f k = g k) -> pick f names = pick g names.
Proof.
  induction names as [|k names IH]; simpl; intro H; [reflexivity|].
  rewrite (H k), IH; auto.
Qed.

Lemma lists_keys kvs args : lists kvs args -> forall k, In k (map fst args) -> In k (map fst (public_entries kvs)).
Proof.
  induction 1; simpl; intros j I; auto.
  - rewrite H. auto.
  - rewrite H. simpl. auto.
  - rewrite H. simpl in *. intuition.
Qed.

Lemma lists_nodup kvs args : lists kvs args -> NoDup (map fst kvs) -> NoDup (map fst args).
Proof.
  induction 1; intro U; [constructor|inversion U; auto..|]. simpl. inversion U as [|? ? U1 U2]; subst.
  constructor; [|auto]. intro I. apply U1. apply (lists_keys _ _ H4) in I. apply in_map_iff in I.
  destruct I as [[a b] [<- I]]. apply filter_In in I. apply in_map_iff. exists (a, b). tauto.
Qed.

Lemma lists_pick kvs args : lists kvs args -> NoDup (map fst kvs) ->
  args = pick (dget String.eqb args) (map fst (public_entries kvs)).
Proof.
  induction 1 as [|k v kvs args P L IH|k v v0 e0 e kvs args P D E0 E Q L IH|k v v0 e0 e kvs args P D E0 E Q L IH];
    intro N; [reflexivity| | |]; inversion N as [|? ? N1 N2]; subst; simpl; rewrite P; [auto| |].
  - simpl. unfold pick in *. simpl.
    destruct (dget String.eqb args k) eqn:G; [|exact (IH N2)].
    exfalso. apply N1. assert (I : In k (dkeys args)) by (apply (dget_in _ string_dec_ok); eauto).
    apply (lists_keys _ _ L) in I. apply in_map_iff in I. destruct I as [[a b] [<- I]].
    apply filter_In in I. apply in_map_iff. exists (a, b). tauto.
  - simpl. rewrite (eqb_refl _ string_dec_ok). simpl. f_equal.
    rewrite (IH N2) at 1. apply pick_ext. intros j J. rewrite (proj2 (eqb_false _ string_dec_ok j k)); [reflexivity|].
    intros ->. apply N1. apply in_map_iff in J. destruct J as [[a b] [<- J]].
    apply filter_In in J. apply in_map_iff. exists (a, b). tauto.
Qed.

Lemma lists_entries kvs args : lists kvs args -> NoDup (map fst kvs) -> forall k v, In (k, v) (public_entries kvs) ->
  exists v0 e0 e, dget String.eqb d k = Some v0 /\ text v0 = Ok e0 /\ text v = Ok e /\
    match dget String.eqb args k with Some e' => e' = e /\ render e <> render e0 | None => render e = render e0 end.
Proof.
  induction 1 as [|k v kvs args P L IH|k v v0 e0 e kvs args P D E0 E Q L IH|k v v0 e0 e kvs args P D E0 E Q L IH];
    intros N j w I; inversion N as [|? ? N1 N2]; subst; simpl in I.
  - destruct I.
  - rewrite P in I. apply IH; assumption.
  - rewrite P in I. destruct I as [[= <- <-]|I]; [|apply IH; assumption].
    exists v0, e0, e. repeat (split; [assumption|]).
    destruct (dget String.eqb args k) eqn:G; [|exact Q].
    exfalso. apply N1. assert (I : In k (dkeys args)) by (apply (dget_in _ string_dec_ok); eauto).
    apply (lists_keys _ _ L) in I. apply in_map_iff in I. destruct I as [[a b] [<- I]].
    apply filter_In in I. apply in_map_iff. exists (a, b). tauto.
  - rewrite P in I. simpl. destruct I as [[= <- <-]|I].
    + exists v0, e0, e. repeat (split; [assumption|]). rewrite (eqb_refl _ string_dec_ok). auto.
    + rewrite (proj2 (eqb_false _ string_dec_ok j k)); [apply IH; assumption|].
      intros ->. apply N1. apply filter_In in I. apply in_map_iff. exists (k, w). tauto.
Qed.

Lemma lists_make f kvs : (forall k v, In (k, v) (public_entries kvs) ->
    exists v0 e0 e, dget String.eqb d k = Some v0 /\ text v0 = Ok e0 /\ text v = Ok e /\
      match f k with Some e' => e' = e /\ render e <> render e0 | None => render e = render e0 end) ->
  lists kvs (pick f (map fst (public_entries kvs))).
Proof.
  induction kvs as [|[k v] kvs IH]; intro H; simpl; [constructor|].
  simpl in H. destruct (is_public k) eqn:P; [|constructor; auto].
  destruct (H k v) as [v0 [e0 [e [D [E0 [E M]]]]]]; [left; reflexivity|].
  assert (L : lists kvs (pick f (map fst (public_entries kvs)))) by (apply IH; intros; apply H; right; assumption).
  simpl. unfold pick in *. simpl. destruct (f k) as [e'|].
  - destruct M as [-> M]. simpl. eapply li_shown; eauto.
  - eapply li_default; eauto.
Qed.
End Args.

Lemma lists_mono text text' d kvs args : (forall v e, text v = Ok e -> text' v = Ok e) ->
  lists text d kvs args -> lists text' d kvs args.
Proof.
  intros M. induction 1; [constructor|constructor; auto|eapply li_default; eauto|eapply li_shown; eauto].
Qed.

Lemma repr_unfold lim h l : repr_expr (S lim) h (VRef l) =
  do o <- rd h l;
  match c_protocol (classes (o_class o)) with
  | Mixin =>
      match c_init (classes (o_class o)) with
      | None => Err TypeError
      | Some d => do args <- for_each (o_attrs o) (arg_step (repr_expr lim h) d) []; Ok (RCall (o_class o) args)
      end
  | _ => Ok (RAtom (repr_foreign o))
  end.
Proof. reflexivity. Qed.

Lemma repr_plain lim h v : plain v -> repr_expr (S lim) h v = Ok (RAtom (repr_atom v)).
Proof. intro P. destruct v; try reflexivity. destruct (P l eq_refl). Qed.

(** An object's expression, in terms of [lists]. *)
Lemma repr_object lim h l o d e : nth_error h l = Some o -> c_protocol (classes (o_class o)) = Mixin ->
  c_init (classes (o_class o)) = Some d ->
  repr_expr (S lim) h (VRef l) = Ok e <-> exists args, lists (repr_expr lim h) d (o_attrs o) args /\ e = RCall (o_class o) args.
Proof.
  intros N P I. rewrite repr_unfold. unfold rd. rewrite N. simpl. rewrite P, I.
  destruct (for_each (o_attrs o) (arg_step (repr_expr lim h) d) []) as [args|x] eqn:E; simpl.
  - apply args_lists0 in E. split.
    + intros [= <-]. eauto.
    + intros [a [L ->]]. apply args_lists0 in L. apply args_lists0 in E. congruence.
  - split; [discriminate|]. intros [a [L ->]]. apply args_lists0 in L. congruence.
Qed.

(** Allocation changes no text. *)
Lemma repr_frame lim : forall h v e, repr_expr lim h v = Ok e -> forall x, repr_expr lim (h ++ x) v = Ok e.
Proof.
  induction lim as [|lim IH]; intros h v e E x; [discriminate|].
  destruct v; try exact E. rewrite repr_unfold in *. unfold rd in *.
  destruct (nth_error h l) as [o|] eqn:N; [|discriminate].
  rewrite nth_error_app1, N by (apply nth_error_Some; congruence). simpl in *.
  destruct (c_protocol (classes (o_class o))); try exact E.
  destruct (c_init (classes (o_class o))) as [d|]; [|exact E].
  destruct (for_each (o_attrs o) (arg_step (repr_expr lim h) d) []) as [args|y] eqn:F; [|discriminate].
  apply args_lists0 in F. apply (lists_mono _ (repr_expr lim (h ++ x))) in F; [|intros; apply IH; assumption].
  apply args_lists0 in F. rewrite F. exact E.
Qed.

(** Private attributes do not matter. *)
Lemma repr_private lim : forall h h', same_public classes h h' -> forall v, repr_expr lim h' v = repr_expr lim h v.
Proof.
  induction lim as [|lim IH]; intros h h' S v; [reflexivity|].
  destruct v; try reflexivity. rewrite !repr_unfold. unfold rd.
  specialize (S l) as Sl. destruct (nth_error h l) as [o|], (nth_error h' l) as [o'|]; try contradiction; [|reflexivity].
  simpl. destruct Sl as [C [M F]]. destruct (c_protocol (classes (o_class o))) eqn:P.
  2:{ rewrite F by discriminate. rewrite P. reflexivity. }
  2:{ rewrite F by discriminate. rewrite P. reflexivity. }
  rewrite C, P. destruct (c_init (classes (o_class o))) as [d|]; [|reflexivity].
  specialize (M eq_refl). f_equal.
  assert (X : forall kvs acc, for_each kvs (arg_step (repr_expr lim h') d) acc = for_each (public_entries kvs) (arg_step (repr_expr lim h) d) acc).
  { induction kvs as [|[k v] kvs IK]; intro acc; [reflexivity|]. cbn [for_each public_entries filter fst].
    unfold arg_step at 1. destruct (is_public k) eqn:U.
    - cbn [for_each]. unfold arg_step at 2. rewrite U. destruct (dget String.eqb d k); [|reflexivity].
      rewrite !(IH h h' S). destruct (repr_expr lim h v0); [|reflexivity]. simpl.
      destruct (repr_expr lim h v); [|reflexivity]. simpl. apply IK.
    - simpl. apply IK. }
  assert (Y : forall kvs acc, for_each kvs (arg_step (repr_expr lim h) d) acc = for_each (public_entries kvs) (arg_step (repr_expr lim h) d) acc).
  { induction kvs as [|[k v] kvs IK]; intro acc; [reflexivity|]. cbn [for_each public_entries filter fst].
    destruct (is_public k) eqn:U.
    - cbn [for_each]. destruct (arg_step (repr_expr lim h) d (k, v) acc); [|reflexivity]. simpl. apply IK.
    - unfold arg_step at 1. rewrite U. simpl. apply IK. }
  rewrite X, M, <- Y. reflexivity.
Qed.
(** ** Termination *)

Lemma repr_total h rank : heap_ok classes h rank -> objects_ok classes h ->
  forall lim v, match v with VRef l => l < length h /\ S (rank l) < lim | _ => 0 < lim end ->
  exists e, repr_expr lim h v = Ok e.
Proof.
  intros W B. induction lim as [|lim IH]; intros v Hv; [exfalso; destruct v; lia|].
  assert (Q : plain v \/ exists l, v = VRef l) by (destruct v; try (left; discriminate); right; eauto).
  destruct Q as [Q|[l ->]]; [rewrite repr_plain by exact Q; eauto|].
  destruct Hv as [Hl Hr]. apply nth_error_Some in Hl. destruct (nth_error h l) as [o|] eqn:N; [|congruence].
  destruct (c_protocol (classes (o_class o))) eqn:P.
  2,3: rewrite repr_unfold; unfold rd; rewrite N; simpl; rewrite P; eauto.
  destruct (B l o N P) as [d [I [[D1 [D2 D3]] [U E]]]].
  assert (T : forall k v, In (k, v) (public_entries (o_attrs o)) -> exists e, repr_expr lim h v = Ok e).
  { intros k v Iv. apply filter_In in Iv. destruct Iv as [Iv Pk]. apply IH.
    destruct v; try lia. assert (V : visible classes h l k).
    { exists o. split; [exact N|]. rewrite P. split.
      - destruct (ho_names _ _ _ W l o N) as [_ X]. apply (X k _ Iv Pk).
      - exists (VRef l0). apply (dget_entry_nodup _ string_dec_ok); assumption. }
    destruct (ho_refs _ _ _ W l k l0 V) as [A1 A2].
    - unfold attr. rewrite N. apply (dget_entry_nodup _ string_dec_ok); assumption.
    - split; [exact A1|lia]. }
  assert (L : forall kvs, (forall k v, In (k, v) (public_entries kvs) -> In k (map fst (public_entries d)) /\ exists e, repr_expr lim h v = Ok e) ->
      exists args, lists (repr_expr lim h) d kvs args).
  { induction kvs as [|[k v] kvs IK]; intro H; [exists []; constructor|].
    destruct IK as [args L]; [intros k' v' I'; apply (H k' v'); simpl; destruct (is_public k); [right|]; exact I'|].
    destruct (is_public k) eqn:Pk; [|exists args; constructor; assumption].
    destruct (H k v) as [J [e Ev]]; [simpl; rewrite Pk; left; reflexivity|].
    apply in_map_iff in J. destruct J as [[k' v0] [<- J]]. simpl in *. apply filter_In in J. destruct J as [J _].
    assert (G : dget String.eqb d k' = Some v0) by (apply (dget_entry_nodup _ string_dec_ok); assumption).
    assert (E0 : repr_expr lim h v0 = Ok (RAtom (repr_atom v0))).
    { destruct lim as [|lim']; [lia|]. apply repr_plain. intros r ->. exact (D3 _ _ J). }
    destruct (string_dec (render e) (render (RAtom (repr_atom v0)))) as [Q|Q].
    - exists args. eapply li_default; eauto.
    - exists ((k', e) :: args). eapply li_shown; eauto. }
  destruct (L (o_attrs o)) as [args A].
  - intros k v Iv. split; [|exact (T k v Iv)]. rewrite <- E. apply in_map_iff. exists (k, v). auto.
  - exists (RCall (o_class o) args). apply (repr_object lim h l o d); eauto.
Qed.

(** ** Clones *)

Lemma public_same (a b : list (string * value)) : map fst (public_entries a) = map fst (public_entries b) ->
  NoDup (map fst a) -> NoDup (map fst b) ->
  (forall k, is_public k = true -> dget String.eqb a k = dget String.eqb b k) -> public_entries a = public_entries b.
Proof.
  intros E Na Nb G.
  assert (X : forall k v w, In (k, v) (public_entries a) -> In (k, w) (public_entries b) -> v = w).
  { intros k v w Iv Iw. apply filter_In in Iv. apply filter_In in Iw. destruct Iv as [Iv P], Iw as [Iw _]. simpl in P.
    apply (dget_entry_nodup _ string_dec_ok) in Iv; [|exact Na]. apply (dget_entry_nodup _ string_dec_ok) in Iw; [|exact Nb].
    rewrite (G k P) in Iv. congruence. }
  revert E X. generalize (public_entries a) as x, (public_entries b) as y. induction x as [|[k v] x IH]; intros [|[j w] y] E X; try discriminate; [reflexivity|].
  simpl in E. injection E as <- E. f_equal.
  - f_equal. eapply X; left; reflexivity.
  - apply IH; [exact E|]. intros k' v' w' I J. apply (X k'); right; assumption.
Qed.
Lemma repr_same_public lim h h' l l' o o' : nth_error h l = Some o -> nth_error h' l' = Some o' ->
  o_class o' = o_class o -> c_protocol (classes (o_class o)) = Mixin ->
  public_entries (o_attrs o') = public_entries (o_attrs o) ->
  (forall v e, repr_expr lim h v = Ok e -> repr_expr lim h' v = Ok e) ->
  forall e, repr_expr (S lim) h (VRef l) = Ok e -> repr_expr (S lim) h' (VRef l') = Ok e.
Proof.
  intros N N' C P E F e. destruct (c_init (classes (o_class o))) as [d|] eqn:I.
  - rewrite (repr_object lim h l o d e N P I).
    rewrite (repr_object lim h' l' o' d e N'); [|rewrite C; assumption..]. rewrite C.
    intros [args [L ->]]. exists args. split; [|reflexivity].
    apply lists_public. rewrite E. apply lists_public. eapply lists_mono; eassumption.
  - rewrite repr_unfold. unfold rd. rewrite N. simpl. rewrite P, I. discriminate.
Qed.

(** ** Evaluation *)

Lemma construct_ok c d : c_init (classes c) = Some d -> forall vs,
  (forall k v, In (k, v) vs -> is_public k = true /\ In k (map fst d)) -> NoDup (map fst vs) ->
  exists attrs, construct c vs = Ok (mkobj c attrs) /\ map fst attrs = map fst d /\
    forall k, dget String.eqb attrs k = match dget String.eqb vs k with Some v => Some v | None => dget String.eqb d k end.
Proof.
  intros I vs. unfold construct. rewrite I.
  assert (G : forall (vs a : list (string * value)), (forall k v, In (k, v) vs -> is_public k = true /\ In k (map fst d)) -> NoDup (map fst vs) ->
    map fst a = map fst d ->
    exists attrs, for_each vs (fun kv attrs => if is_public (fst kv) && dmem String.eqb d (fst kv)
           then Ok (dset String.eqb attrs (fst kv) (snd kv)) else Err TypeError) a = Ok attrs /\ map fst attrs = map fst d /\
    forall k, dget String.eqb attrs k = match dget String.eqb vs k with Some v => Some v | None => dget String.eqb a k end).
  { clear vs. induction vs as [|[k v] vs IH]; intros a H N K; [exists a; auto|].
    destruct (H k v) as [P M]; [left; reflexivity|]. inversion N as [|? ? N1 N2]; subst.
    assert (B : dmem String.eqb d k = true).
    { unfold dmem. apply (dget_in _ string_dec_ok) in M. destruct M as [w ->]. reflexivity. }
    assert (Ka : map fst (dset String.eqb a k v) = map fst a).
    { change (dkeys (dset String.eqb a k v) = dkeys a). rewrite dkeys_dset.
      unfold dmem. assert (Ma : In k (dkeys a)) by (unfold dkeys; rewrite K; exact M).
      apply (dget_in _ string_dec_ok) in Ma. destruct Ma as [w ->]. reflexivity. }
    destruct (IH (dset String.eqb a k v)) as [attrs [E [K' G]]];
      [intros j w J; apply (H j w); right; exact J|exact N2|congruence|].
    exists attrs. simpl. rewrite P, B. simpl. split; [exact E|]. split; [exact K'|].
    intro j. rewrite G, (dget_dset _ string_dec_ok). destruct (String.eqb j k) eqn:Q; [|reflexivity].
    apply String.eqb_eq in Q. subst j.
    replace (dget String.eqb vs k) with (@None value); [reflexivity|]. symmetry.
    apply (dget_none _ string_dec_ok). exact N1. }
  intros H N. destruct (G vs d H N eq_refl) as [attrs [E [K D]]]. exists attrs. rewrite E. simpl. auto.
Qed.

Definition eval_args : heap -> list (string * rexpr) -> res (list (string * value) * heap) :=
  fix eval_args (h : heap) (args : list (string * rexpr)) :=
    match args with
    | [] => Ok ([], h)
    | (k, x) :: rest =>
        do r <- eval h x;
        do r' <- eval_args (snd r) rest;
        Ok ((k, fst r) :: fst r', snd r')
    end.

Lemma eval_call h c args : eval h (RCall c args) =
  do r <- eval_args h args;
  do o <- construct c (fst r);
  Ok (VRef (length (snd r)), snd r ++ [o]).
Proof. reflexivity. Qed.

(** Evaluating the expression of a value gives a value with this expression. *)
Lemma eval_args_ok text lim g args :
  (forall k e, In (k, e) args -> forall x, exists v' y, eval (g ++ x) e = Ok (v', (g ++ x) ++ y) /\
     repr_expr lim ((g ++ x) ++ y) v' = Ok e /\ text e v') ->
  forall x, exists vs y, eval_args (g ++ x) args = Ok (vs, (g ++ x) ++ y) /\ map fst vs = map fst args /\
    Forall2 (fun a kv => repr_expr lim ((g ++ x) ++ y) (snd kv) = Ok (snd a) /\ text (snd a) (snd kv)) args vs.
Proof.
  induction args as [|[k e] args IH]; intros H x.
  - exists [], []. rewrite app_nil_r. repeat split; constructor.
  - destruct (H k e (or_introl eq_refl) x) as [v [y [E [R T]]]].
    destruct (IH (fun k' e' I => H k' e' (or_intror I)) (x ++ y)) as [vs [z [E' [K F]]]].
    exists ((k, v) :: vs), (y ++ z). simpl. rewrite E. simpl.
    rewrite !app_assoc in *. rewrite E'. simpl. split; [reflexivity|]. split; [f_equal; exact K|].
    constructor; [|exact F]. simpl. split; [|exact T]. apply repr_frame, R.
Qed.

Lemma dget_forall2 (R : string * rexpr -> string * value -> Prop) args vs :
  Forall2 R args vs -> map fst vs = map fst args -> forall k,
  match dget String.eqb args k with
  | Some e => exists v, dget String.eqb vs k = Some v /\ R (k, e) (k, v)
  | None => dget String.eqb vs k = None
  end.
Proof.
  induction 1 as [|[k e] [k' v] args vs Hr F IH]; intros E j; [reflexivity|].
  simpl in E. injection E as -> E. simpl. destruct (String.eqb j k) eqn:Q.
  - apply String.eqb_eq in Q. subst j. exists v. auto.
  - apply IH, E.
Qed.

(** Objects that evaluating the text of [l] yields. *)
Definition remade lim (h h' : heap) (l l' : nat) : Prop :=
  exists o o', nth_error h l = Some o /\ nth_error h' l' = Some o' /\ o_class o' = o_class o /\
    map fst (public_entries (o_attrs o')) = map fst (public_entries (o_attrs o)) /\
    forall k v, is_public k = true -> attr_of o k = Some v ->
      exists v' e e', attr_of o' k = Some v' /\ repr_expr lim h v = Ok e /\ repr_expr lim h' v' = Ok e' /\
        render e' = render e /\
        (plain v -> read_atom (repr_atom v) = Some (inl v) ->
         (forall d v0, c_init (classes (o_class o)) = Some d -> dget String.eqb d k = Some v0 -> repr_atom v = repr_atom v0 -> v = v0) ->
         v' = v).

Lemma eval_repr h : objects_ok classes h -> readable classes repr_atom repr_foreign read_atom h ->
  forall lim v e, repr_expr lim h v = Ok e ->
  (plain v -> readable_value repr_atom read_atom v) ->
  forall x, exists v' y, eval (h ++ x) e = Ok (v', (h ++ x) ++ y) /\ repr_expr lim ((h ++ x) ++ y) v' = Ok e /\
    (plain v -> read_atom (repr_atom v) = Some (inl v) -> v' = v) /\
    forall l o, v = VRef l -> nth_error h l = Some o -> c_protocol (classes (o_class o)) = Mixin ->
      exists l', v' = VRef l' /\ remade (pred lim) h ((h ++ x) ++ y) l l'.
Proof.
  intros B Rd. induction lim as [|lim IH]; intros v e E Pv x; [discriminate|].
  assert (Q : plain v \/ exists l, v = VRef l) by (destruct v; try (left; discriminate); right; eauto).
  destruct Q as [Q|[l ->]].
  - rewrite repr_plain in E by exact Q. injection E as <-.
    destruct (Pv Q) as [v' [P' [Re Rv]]]. exists v', []. rewrite app_nil_r.
    split; [simpl; rewrite Re; reflexivity|]. split; [rewrite repr_plain by exact P'; congruence|]. split.
    + intros _ R0. congruence.
    + intros l o ->. destruct (Q l eq_refl).
  - destruct (nth_error h l) as [o|] eqn:N.
    2:{ rewrite repr_unfold in E. unfold rd in E. rewrite N in E. discriminate. }
    destruct (Rd l o N) as [RM RF].
    destruct (c_protocol (classes (o_class o))) eqn:P.
    2,3: destruct (RF ltac:(discriminate)) as [o' [P' [Re Rv]]];
      rewrite repr_unfold in E; unfold rd in E; rewrite N in E; simpl in E; rewrite P in E; injection E as <-;
      exists (VRef (length (h ++ x))), [o']; simpl; rewrite Re; (split; [reflexivity|]);
      (split; [unfold rd; rewrite nth_error_app2, Nat.sub_diag by lia; simpl;
               rewrite Rv; destruct (c_protocol (classes (o_class o'))); [congruence|reflexivity..]|]);
      (split; [intros Pl; destruct (Pl l eq_refl)|intros l0 o0 [= <-] N0; congruence]).
    destruct (B l o N P) as [d [I [[D1 [D2 D3]] [U En]]]].
    apply (repr_object lim h l o d e N P I) in E. destruct E as [args [L ->]].
    pose proof (lists_entries _ _ _ _ L U) as Ent.
    assert (Ha : forall k e, In (k, e) args -> exists v, In (k, v) (public_entries (o_attrs o)) /\ repr_expr lim h v = Ok e).
    { clear - L. induction L; intros j f I; simpl in *.
      - destruct I.
      - rewrite H. auto.
      - rewrite H. destruct (IHL j f I) as [w [I1 I2]]. exists w. simpl. auto.
      - rewrite H. destruct I as [[= <- <-]|I]; [exists v; simpl; auto|].
        destruct (IHL j f I) as [w [I1 I2]]. exists w. simpl. auto. }
    pose proof (lists_nodup _ _ _ _ L U) as Na.
    destruct (eval_args_ok (fun e v' => forall v, plain v -> e = RAtom (repr_atom v) -> read_atom (repr_atom v) = Some (inl v) -> v' = v) lim h args) with (x := x) as [vs [y [Ev [Kv F]]]].
    { intros k f If z. destruct (Ha k f If) as [v [Iv Rv]].
      destruct (IH v f Rv) with (x := z) as [v' [y [E1 [E2 [E3 E4]]]]].
      - intro Pl. apply (RM eq_refl k v Iv Pl).
      - exists v', y. split; [exact E1|]. split; [exact E2|]. intros w Pw -> Rw. simpl in E1. rewrite Rw in E1. congruence. }
    destruct (construct_ok (o_class o) d I vs) as [attrs [Ec [Kd Gd]]].
    { intros k v Iv. assert (J : In k (map fst args)) by (rewrite <- Kv; apply in_map_iff; exists (k, v); auto).
      apply (lists_keys _ _ _ _ L) in J. rewrite En in J. apply in_map_iff in J. destruct J as [[a b] [<- J]].
      apply filter_In in J. destruct J as [J1 J2]. split; [exact J2|]. apply in_map_iff. exists (a, b). auto. }
    { rewrite Kv. exact Na. }
    assert (Pd : forall kvs kvs' : list (string * value), map fst kvs = map fst kvs' -> map fst (public_entries kvs) = map fst (public_entries kvs')).
    { induction kvs as [|[a b] kvs IK]; intros [|[a' b'] kvs'] Em; try discriminate; [reflexivity|].
      simpl in Em. injection Em as -> Em. simpl. destruct (is_public a'); simpl; rewrite (IK _ Em); reflexivity. }
    pose proof (Pd _ _ Kd) as Kp.
    set (g := (h ++ x) ++ y) in *. set (o' := mkobj (o_class o) attrs).
    exists (VRef (length g)), (y ++ [o']). rewrite app_assoc. fold g. rewrite eval_call, Ev. simpl. rewrite Ec. simpl.
    split; [reflexivity|].
    assert (N' : nth_error (g ++ [o']) (length g) = Some o') by (rewrite nth_error_app2, Nat.sub_diag by lia; reflexivity).
    assert (Fr : forall v e, repr_expr lim h v = Ok e -> repr_expr lim (g ++ [o']) v = Ok e).
    { intros v f Rv. unfold g. rewrite <- !app_assoc. apply repr_frame, Rv. }
    (* each public attribute of the new object *)
    assert (Att : forall k v, In (k, v) (public_entries (o_attrs o)) -> exists v0 e0 e v',
        dget String.eqb d k = Some v0 /\ repr_expr lim h v0 = Ok e0 /\ repr_expr lim h v = Ok e /\
        dget String.eqb attrs k = Some v' /\
        match dget String.eqb args k with
        | Some e' => e' = e /\ render e <> render e0 /\ repr_expr lim (g ++ [o']) v' = Ok e /\
            forall w, plain w -> e = RAtom (repr_atom w) -> read_atom (repr_atom w) = Some (inl w) -> v' = w
        | None => render e = render e0 /\ v' = v0
        end).
    { intros k v Iv. destruct (Ent k v Iv) as [v0 [e0 [f [G0 [E0 [Ef M]]]]]].
      pose proof (dget_forall2 _ _ _ F Kv k) as Dk. exists v0, e0, f.
      destruct (dget String.eqb args k) as [e'|].
      - destruct Dk as [v' [G' [R' T']]]. exists v'. repeat (split; [assumption|]). split; [rewrite Gd, G'; reflexivity|].
        destruct M as [-> M]. split; [reflexivity|]. split; [exact M|]. split; [apply repr_frame, R'|exact T'].
      - exists v0. repeat (split; [assumption|]). split; [rewrite Gd, Dk; exact G0|]. auto. }
    split; [|split].
    + apply (repr_object lim (g ++ [o']) (length g) o' d _ N' P I). exists args. split; [|reflexivity].
      rewrite (lists_pick _ _ _ _ L U). rewrite En, <- Kp. change attrs with (o_attrs o'). apply lists_make.
      intros k v' Iv'. assert (J : In k (map fst (public_entries (o_attrs o)))).
      { rewrite En, <- Kp. apply in_map_iff. exists (k, v'). auto. }
      apply in_map_iff in J. destruct J as [[k2 v] [Ek Iv]]. simpl in Ek. subst k2.
      destruct (Att k v Iv) as [v0 [e0 [f [w [G0 [E0 [Ef [Gw M]]]]]]]].
      assert (Ew : w = v').
      { apply filter_In in Iv'. destruct Iv' as [Iv' _]. apply (dget_entry_nodup _ string_dec_ok) in Iv'.
        - simpl in Iv'. congruence.
        - simpl. unfold dkeys. rewrite Kd. exact D1. }
      subst w. exists v0, e0. destruct (dget String.eqb args k) as [e'|].
      * destruct M as [-> [M1 [M2 _]]]. exists f. repeat (split; [auto|]). auto.
      * destruct M as [M ->]. exists e0. repeat (split; [auto|]). reflexivity.
    + intros Pl. destruct (Pl l eq_refl).
    + intros l0 o0 [= <-] N0 _. exists (length g). split; [reflexivity|]. exists o, o'. simpl.
      split; [exact N|]. split; [exact N'|]. split; [reflexivity|]. split; [rewrite En; exact Kp|].
      intros k v Pk Ak. assert (Iv : In (k, v) (public_entries (o_attrs o))).
      { apply filter_In. split; [|exact Pk]. apply (dget_entry _ string_dec_ok), Ak. }
      destruct (Att k v Iv) as [v0 [e0 [f [w [G0 [E0 [Ef [Gw M]]]]]]]].
      exists w, f. destruct (dget String.eqb args k) as [e'|].
      * destruct M as [-> [M1 [M2 M3]]]. exists f. repeat (split; [auto|]). intros Pl Rp _. apply M3; auto.
        destruct lim; [discriminate|]. rewrite repr_plain in Ef by exact Pl. congruence.
      * destruct M as [M ->]. exists e0. repeat (split; [auto|]).
        intros Pl Rp Inj. symmetry. apply (Inj d v0 I G0).
        destruct lim; [discriminate|]. rewrite repr_plain in Ef by exact Pl. injection Ef as <-.
        assert (P0 : plain v0) by (intros r ->; exact (D3 k r (dget_entry _ string_dec_ok _ _ _ G0))).
        rewrite repr_plain in E0 by exact P0. injection E0 as <-. exact M.
Qed.

(** ** The text *)

Lemma lists_pieces lim h d kvs args : lists (repr_expr lim h) d kvs args ->
  pieces (fun v t => repr lim h v = Ok t) d kvs (map (fun a => let '(k, x) := a in (k ++ "=" ++ render x)%string) args).
Proof.
  induction 1 as [|k v kvs args P L IH|k v v0 e0 e kvs args P D E0 E Q L IH|k v v0 e0 e kvs args P D E0 E Q L IH]; simpl.
  - constructor.
  - constructor; assumption.
  - eapply pc_default; [exact P|exact D| | |exact IH].
    + unfold repr. rewrite E0. reflexivity.
    + unfold repr. rewrite E. simpl. rewrite Q. reflexivity.
  - eapply pc_shown; [exact P|exact D| | |exact Q|exact IH].
    + unfold repr. rewrite E0. reflexivity.
    + unfold repr. rewrite E. reflexivity.
Qed.
End Repr.
