(** Parameters and cloning: C36, C37. *)
From Coq Require Import String.
From Verif Require Import Base Dict DictFacts ModelObjects SpecObjects ObjectFacts ObjectProp CloneProp SetProp.
Open Scope list_scope.
Open Scope string_scope.

(** ** C36: get_params / set_params *)

(** [get_params] returns exactly the parameters, with every nested one under its path. *)
Theorem C36_get_params : forall classes h rank lim l,
  heap_ok classes h rank -> rank l < lim -> has_protocol classes h l ->
  exists ps, get_params classes lim h true l = Ok ps /\ NoDup (map fst ps) /\
    forall key v, dget String.eqb ps key = Some v <-> resolves classes h l key v.
Proof. intros. eapply get_params_ok; eassumption. Qed.
Print Assumptions C36_get_params.

(** Setting one existing parameter and reading all of them back. *)
Theorem C36_set_then_get : forall classes h rank l k v lim,
  heap_ok classes h rank -> is_mixin classes h l -> param_name k -> (exists w, attr h l k = Some w) ->
  (forall r, v = VRef r -> r < List.length h /\ rank r < rank l) -> rank l < lim -> 2 < lim ->
  exists h' ps ps', set_params classes lim h l [(k, v)] = Ok h' /\ heap_ok classes h' rank /\
    get_params classes lim h true l = Ok ps /\ get_params classes lim h' true l = Ok ps' /\
    dget String.eqb ps' k = Some v /\
    forall key, key <> k -> (forall j, key <> k ++ "__" ++ j) -> dget String.eqb ps' key = dget String.eqb ps key.
Proof. exact set_get. Qed.
Print Assumptions C36_set_then_get.

(** Any mixture of own and nested parameters: exactly the named attributes change. *)
Theorem C36_set_params_effect : forall classes h l ss lim,
  is_mixin classes h l -> settings_ok classes h l ss ->
  exists h', set_params classes (S (S (S lim))) h l (map kwarg_of ss) = Ok h' /\ updated classes h l ss h'.
Proof. exact sets_ok. Qed.
Print Assumptions C36_set_params_effect.

(** In whatever order the arguments come. *)
Theorem C36_order_irrelevant : forall classes h l ss ss' lim,
  is_mixin classes h l -> settings_ok classes h l ss -> Permutation ss ss' ->
  exists h1 h2, set_params classes (S (S (S lim))) h l (map kwarg_of ss) = Ok h1 /\
    set_params classes (S (S (S lim))) h l (map kwarg_of ss') = Ok h2 /\ same_heap h1 h2.
Proof. exact set_order. Qed.
Print Assumptions C36_order_irrelevant.

(** Private names, and names the object does not have, are ignored. *)
Theorem C36_ignored : forall classes h l ps lim,
  is_mixin classes h l ->
  (forall key v, In (key, v) ps -> is_public key = false \/ ~ known classes h l (fst (partition_ key))) ->
  set_params classes (S lim) h l ps = Ok h.
Proof. exact set_ignored. Qed.
Print Assumptions C36_ignored.

(** A nested name through a parameter that is not an object (say [None]) raises. *)
Theorem C36_nested_into_non_object : forall classes h l k j v w lim,
  is_mixin classes h l -> param_name k -> param_name j -> attr h l k = Some w -> (forall r, w <> VRef r) ->
  set_params classes (S lim) h l [((k ++ "__" ++ j), v)] = Err AttributeError.
Proof. exact set_nested_not_object. Qed.
Print Assumptions C36_nested_into_non_object.

(** *** The classes used in the examples. 0: MapperAlgorithm, 1: DBSCAN (three of
    its parameters), 2: a cover with two parameters, 3: FailSafeClustering, other
    numbers: an object without parameters. *)
Definition tclasses (c : nat) : class :=
  match c with
  | 0 => mkclass Mixin (Some [("cover", VNone); ("clustering", VNone); ("failsafe", VBool true); ("verbose", VBool true); ("n_jobs", VInt 1)])
                 ["fit"; "fit_transform"; "get_params"; "set_params"]
  | 1 => mkclass (Sklearn ["eps"; "metric"; "min_samples"])
                 (Some [("eps", VData 5); ("min_samples", VInt 5); ("metric", VStr "euclidean")])
                 ["fit"; "fit_predict"; "get_params"; "set_params"]
  | 2 => mkclass Mixin (Some [("radius", VInt 1); ("metric", VStr "euclidean")]) ["fit"; "apply"; "get_params"; "set_params"]
  | 3 => mkclass Mixin (Some [("clustering", VNone); ("verbose", VBool true)]) ["fit"; "get_params"; "set_params"]
  | _ => mkclass NoProtocol None []
  end.

(** A fitted DBSCAN, a cover, and a MapperAlgorithm using both, fitted before. *)
Definition theap : heap :=
  [ mkobj 1 [("eps", VData 3); ("min_samples", VInt 2); ("metric", VStr "euclidean"); ("labels_", VLabels [0; 1]%Z)];
    mkobj 2 [("radius", VInt 7); ("metric", VStr "euclidean")];
    mkobj 0 [("cover", VRef 1); ("clustering", VRef 0); ("failsafe", VBool false); ("verbose", VBool true); ("n_jobs", VInt 1);
             ("_n_jobs", VInt 1); ("graph_", VData 9)] ].
Definition trank (l : nat) : nat := if Nat.eqb l 2 then 1 else 0.

Lemma tname k : partition_ k = (k, None) -> starts_us k = false -> ends_us k = false -> k <> EmptyString -> param_name k.
Proof.
  intros P S E N. split; [exact N|]. split; [|split].
  - intros a b ->. revert P. clear. revert b. induction a as [|c a IH]; intros b P.
    + simpl in P. discriminate.
    + destruct a as [|d a].
      * simpl in P. destruct (Ascii.eqb c underscore); discriminate.
      * change (partition_ (String c (String d a) ++ "__" ++ b)) with
          (if Ascii.eqb c underscore && Ascii.eqb d underscore then (EmptyString, Some (a ++ "__" ++ b))
           else let '(o, i) := partition_ (String d a ++ "__" ++ b) in (String c o, i)) in P.
        destruct (Ascii.eqb c underscore && Ascii.eqb d underscore); [discriminate|].
        destruct (partition_ (String d a ++ "__" ++ b)) as [o i] eqn:Q. injection P as Po ->. apply (IH b).
        rewrite Q. f_equal. exact Po.
  - intros r ->. discriminate S.
  - intros r ->. assert (X : ends_us (r ++ "_") = true) by (apply ends_us_spec; eauto). congruence.
Qed.
Ltac name := apply tname; [reflexivity|reflexivity|reflexivity|discriminate].
Ltac nodup := repeat (constructor; [simpl; intuition discriminate|]); constructor.

Lemma theap_ok : heap_ok tclasses theap trank.
Proof.
  constructor.
  - intros l o N. destruct l as [|[|[|l]]]; [| | |destruct l; discriminate N]; injection N as <-; (split; [nodup|]);
      intros k v I P; simpl in I;
      repeat (destruct I as [I|I]; [injection I as <- _; first [discriminate P|name]|]); destruct I.
  - intros l k l' _ A. unfold attr in A. destruct (nth_error theap l) as [o|] eqn:N; [|discriminate].
    apply (dget_entry _ string_dec_ok) in A.
    destruct l as [|[|[|l]]]; [| | |destruct l; discriminate N]; injection N as <-; simpl in A;
      repeat (destruct A as [A|A]; [first [discriminate A|injection A as _ <-; unfold trank; simpl; lia]|]); destruct A.
  - intros l o names N E. destruct l as [|[|[|l]]]; [| | |destruct l; discriminate N]; injection N as <-; try discriminate E.
    injection E as <-. split; [nodup|]. intros k I. simpl in I.
    repeat (destruct I as [<-|I]; [split; [name|eexists; reflexivity]|]). destruct I.
Qed.

Example C36_get_params_example :
  get_params tclasses 10 theap true 2 = Ok
    [("cover", VRef 1); ("cover__radius", VInt 7); ("cover__metric", VStr "euclidean");
     ("clustering", VRef 0); ("clustering__eps", VData 3); ("clustering__metric", VStr "euclidean"); ("clustering__min_samples", VInt 2);
     ("failsafe", VBool false); ("verbose", VBool true); ("n_jobs", VInt 1)] /\
  resolves tclasses theap 2 "clustering__eps" (VData 3) /\
  heap_ok tclasses theap trank /\ trank 2 < 10 /\ has_protocol tclasses theap 2.
Proof.
  split; [reflexivity|]. split.
  - destruct (C36_get_params tclasses theap trank 10 2 theap_ok) as [ps [E [_ R]]].
    { unfold trank. simpl. lia. } { eexists. split; [reflexivity|discriminate]. }
    apply R. vm_compute in E. injection E as <-. reflexivity.
  - split; [exact theap_ok|]. split; [unfold trank; simpl; lia|]. eexists. split; [reflexivity|discriminate].
Qed.

(** Hypotheses of the setting theorems, met: replace the cover, and set a parameter
    of the new cover and one of the clustering, in one call. *)
Definition theap2 : heap := (theap ++ [mkobj 2 [("radius", VInt 1); ("metric", VStr "chebyshev")]])%list.
Definition tsettings : list setting :=
  [Nested "cover" "radius" (VInt 4); Nested "clustering" "eps" (VData 8); Outer "cover" (VRef 3); Outer "n_jobs" (VInt 2)].
Example C36_settings_example :
  is_mixin tclasses theap2 2 /\ settings_ok tclasses theap2 2 tsettings /\
  set_params tclasses 5 theap2 2 (map kwarg_of tsettings) = Ok
    [ mkobj 1 [("eps", VData 8); ("min_samples", VInt 2); ("metric", VStr "euclidean"); ("labels_", VLabels [0; 1]%Z)];
      mkobj 2 [("radius", VInt 7); ("metric", VStr "euclidean")];
      mkobj 0 [("cover", VRef 3); ("clustering", VRef 0); ("failsafe", VBool false); ("verbose", VBool true); ("n_jobs", VInt 2);
               ("_n_jobs", VInt 1); ("graph_", VData 9)];
      mkobj 2 [("radius", VInt 4); ("metric", VStr "chebyshev")] ].
Proof.
  split; [eexists; split; reflexivity|]. split; [|reflexivity].
  assert (Tc : forall w, target theap2 2 tsettings "cover" w -> w = VRef 3).
  { intros w [I|[_ X]]; [|exfalso; apply (X (VRef 3)); simpl; auto]. simpl in I. intuition congruence. }
  assert (Tl : forall w, target theap2 2 tsettings "clustering" w -> w = VRef 0).
  { intros w [I|[A _]]; [simpl in I; intuition congruence|]. injection A as <-. reflexivity. }
  constructor.
  - nodup.
  - intros s I. simpl in I. repeat (destruct I as [<-|I]; [try split; name|]). destruct I.
  - intros k j v I _. simpl in I. destruct I as [I|[I|[I|[I|[]]]]]; try discriminate I; injection I as <- <- <-.
    + exists 3. split; [left; simpl; auto|]. split; [lia|]. left. eexists. split; reflexivity.
    + exists 0. split; [right; split; [reflexivity|intros w X; simpl in X; intuition congruence]|]. split; [lia|]. right.
      exists ["eps"; "metric"; "min_samples"]. split; [|split; [simpl; auto|discriminate]].
      eexists. split; [reflexivity|]. split; [reflexivity|]. intros n X. simpl in X.
      repeat (destruct X as [<-|X]; [split; [name|eexists; split; [reflexivity|discriminate]]|]). destruct X.
  - intros k j v k' j' v' m I I' T T'. simpl in I, I'.
    destruct I as [I|[I|[I|[I|[]]]]]; try discriminate I; injection I as <- <- <-;
    destruct I' as [I'|[I'|[I'|[I'|[]]]]]; try discriminate I'; injection I' as <- <- <-; try reflexivity;
    [apply Tc in T; apply Tl in T'|apply Tl in T; apply Tc in T']; congruence.
Qed.

Example C36_ignored_example :
  set_params tclasses 5 theap 2 [("_cover", VNone); ("graph_", VNone); ("radius", VInt 3); ("nope__radius", VInt 3)] = Ok theap /\
  set_params tclasses 5 [mkobj 0 [("cover", VNone)]] 0 [("cover__radius", VInt 3)] = Err AttributeError.
Proof. split; reflexivity. Qed.

(** *** Where it stops *)

(** A method name counts as existing: [set_params(fit=...)] hides the method. *)
Theorem C36_only_parameters_refuted :
  exists h', set_params tclasses 5 theap 2 [("fit", VNone)] = Ok h' /\ attr theap 2 "fit" = None /\ attr h' 2 "fit" = Some VNone.
Proof. eexists. split; [vm_compute; reflexivity|]. split; reflexivity. Qed.
Print Assumptions C36_only_parameters_refuted.

(** Two levels down the order of the arguments matters: a nested name that comes
    before the replacement of an object in the middle goes to the old object. *)
Definition dheap : heap :=
  [ mkobj 2 [("radius", VInt 7); ("metric", VNone)];
    mkobj 3 [("clustering", VRef 0); ("verbose", VBool true)];
    mkobj 0 [("cover", VNone); ("clustering", VRef 1); ("failsafe", VBool false); ("verbose", VBool true); ("n_jobs", VInt 1)];
    mkobj 2 [("radius", VInt 1); ("metric", VNone)] ].
Theorem C36_order_two_levels_refuted :
  exists h1 h2,
    set_params tclasses 5 dheap 2 [("clustering__clustering", VRef 3); ("clustering__clustering__radius", VInt 4)] = Ok h1 /\
    set_params tclasses 5 dheap 2 [("clustering__clustering__radius", VInt 4); ("clustering__clustering", VRef 3)] = Ok h2 /\
    attr h1 3 "radius" = Some (VInt 4) /\ attr h2 3 "radius" = Some (VInt 1) /\ attr h2 0 "radius" = Some (VInt 4).
Proof. eexists. eexists. split; [vm_compute; reflexivity|]. split; [vm_compute; reflexivity|]. repeat split; reflexivity. Qed.
Print Assumptions C36_order_two_levels_refuted.

(** If two parameters are the same object, the last nested setting wins. *)
Definition aheap : heap :=
  [ mkobj 2 [("radius", VInt 7); ("metric", VNone)];
    mkobj 0 [("cover", VRef 0); ("clustering", VRef 0); ("failsafe", VBool false); ("verbose", VBool true); ("n_jobs", VInt 1)] ].
Theorem C36_order_shared_object_refuted :
  exists h1 h2,
    set_params tclasses 5 aheap 1 [("cover__radius", VInt 1); ("clustering__radius", VInt 2)] = Ok h1 /\
    set_params tclasses 5 aheap 1 [("clustering__radius", VInt 2); ("cover__radius", VInt 1)] = Ok h2 /\
    attr h1 0 "radius" <> attr h2 0 "radius".
Proof. eexists. eexists. split; [vm_compute; reflexivity|]. split; [vm_compute; reflexivity|]. vm_compute. discriminate. Qed.
Print Assumptions C36_order_shared_object_refuted.

(** ** C37: clone *)

(** The clone is a new object appended to the heap: same class, same parameter
    values, everything else as the constructor leaves it; every other object is
    untouched; the parameters read from it are those read from the original. *)
Theorem C37_clone : forall classes h rank l o d,
  heap_ok classes h rank -> nth_error h l = Some o -> c_init (classes (o_class o)) = Some d ->
  init_ok d -> params_of_class classes o d -> forall lim, rank l + 1 < lim ->
  exists o', clone classes lim h l = Ok (List.length h, (h ++ [o'])%list) /\ fresh_copy classes h l o d o' /\
    heap_ok classes (h ++ [o'])%list (rank' h rank l) /\
    (forall key v, resolves classes (h ++ [o'])%list (List.length h) key v <-> resolves classes h l key v) /\
    exists ps ps', get_params classes lim h true l = Ok ps /\
      get_params classes lim (h ++ [o'])%list true (List.length h) = Ok ps' /\
      forall key, dget String.eqb ps' key = dget String.eqb ps key.
Proof. exact clone_spec. Qed.
Print Assumptions C37_clone.

(** It has no fitted attribute, unless the constructor itself sets it. *)
Theorem C37_clone_unfitted : forall classes h rank l o d,
  heap_ok classes h rank -> nth_error h l = Some o -> c_init (classes (o_class o)) = Some d ->
  init_ok d -> params_of_class classes o d -> forall lim, rank l + 1 < lim ->
  forall l' h', clone classes lim h l = Ok (l', h') ->
  forall k, ~ In k (map fst d) -> attr h' l' k = None.
Proof.
  intros classes h rank l o d W N I D P lim Hl l' h' E k Hk.
  destruct (clone_spec classes h rank l o d W N I D P lim Hl) as [o' [E' [[_ [Ik _]] _]]].
  rewrite E in E'. injection E' as -> ->. unfold attr. rewrite nth_error_app2, Nat.sub_diag by lia. simpl.
  unfold attr_of. apply (DictFacts.dget_none _ string_dec_ok). unfold dkeys. rewrite Ik. exact Hk.
Qed.
Print Assumptions C37_clone_unfitted.

(** The nested objects of the clone are the very objects of the original. *)
Theorem C37_nested_shared : forall classes h rank l o d,
  heap_ok classes h rank -> nth_error h l = Some o -> c_init (classes (o_class o)) = Some d ->
  init_ok d -> params_of_class classes o d -> forall lim, rank l + 1 < lim ->
  forall l' h', clone classes lim h l = Ok (l', h') ->
  forall k r, visible classes h l k -> attr h l k = Some (VRef r) -> attr h' l' k = Some (VRef r) /\ nth_error h' r = nth_error h r.
Proof.
  intros classes h rank l o d W N I D P lim Hl l' h' E k r V A.
  destruct (clone_spec classes h rank l o d W N I D P lim Hl) as [o' [E' [[_ [_ [C _]]] _]]].
  rewrite E in E'. injection E' as -> ->. split.
  - unfold attr. rewrite nth_error_app2, Nat.sub_diag by lia. simpl. rewrite (C k V). unfold attr in A. rewrite N in A. exact A.
  - destruct (ho_refs _ _ _ W _ _ _ V A). apply nth_error_app1. assumption.
Qed.
Print Assumptions C37_nested_shared.

(** A class whose constructor has required arguments cannot be cloned. *)
Theorem C37_required_arguments : forall classes h rank l o lim,
  heap_ok classes h rank -> nth_error h l = Some o -> has_protocol classes h l -> rank l < lim ->
  c_init (classes (o_class o)) = None -> clone classes lim h l = Err TypeError.
Proof.
  intros classes h rank l o lim W N P Hl I. destruct (get_params_ok classes h rank W lim l Hl P) as [ps [E _]].
  unfold clone. rewrite E. simpl. unfold rd. rewrite N. simpl. rewrite I. reflexivity.
Qed.
Print Assumptions C37_required_arguments.

Example C37_example :
  clone tclasses 5 theap 2 = Ok (3, (theap ++
    [mkobj 0 [("cover", VRef 1); ("clustering", VRef 0); ("failsafe", VBool false); ("verbose", VBool true); ("n_jobs", VInt 1)]])%list) /\
  clone tclasses 5 theap 0 = Ok (3, (theap ++
    [mkobj 1 [("eps", VData 3); ("min_samples", VInt 2); ("metric", VStr "euclidean")]])%list) /\
  (exists d, c_init (tclasses 0) = Some d /\ init_ok d /\ params_of_class tclasses (nth 2 theap (mkobj 9 [])) d) /\
  (exists d, c_init (tclasses 1) = Some d /\ init_ok d /\ params_of_class tclasses (nth 0 theap (mkobj 9 [])) d).
Proof.
  split; [reflexivity|]. split; [reflexivity|].
  split; eexists; (split; [reflexivity|]); (split; [split; [nodup|split]|]).
  - intros k v I P. simpl in I. repeat (destruct I as [I|I]; [injection I as <- _; name|]). destruct I.
  - intros k l I. simpl in I. intuition discriminate.
  - intros k P. unfold attr_of. rewrite (dget_in _ string_dec_ok). simpl. split; intro I.
    + do 5 (destruct I as [I|I]; [auto 10|]). destruct I as [<-|[<-|[]]]; discriminate P.
    + do 5 (destruct I as [I|I]; [auto 10|]). destruct I.
  - intros k v I P. simpl in I. repeat (destruct I as [I|I]; [injection I as <- _; name|]). destruct I.
  - intros k l I. simpl in I. intuition discriminate.
  - intros k I. simpl in I |- *. destruct I as [I|[I|[I|[]]]]; auto.
Qed.

(** Consequence of the sharing: refitting what the clone holds shows in the original. *)
Theorem C37_independent_refuted :
  exists l' h' h'' r, clone tclasses 5 theap 2 = Ok (l', h') /\
    attr h' l' "clustering" = Some (VRef r) /\
    set_attr h' r "labels_" (VLabels [5]%Z) = Ok h'' /\
    attr h'' 2 "clustering" = Some (VRef r) /\ attr h'' r "labels_" <> attr theap r "labels_".
Proof.
  exists 3. eexists. eexists. exists 0. split; [vm_compute; reflexivity|]. split; [vm_compute; reflexivity|]. split; [vm_compute; reflexivity|].
  split; [vm_compute; reflexivity|]. vm_compute. discriminate.
Qed.
Print Assumptions C37_independent_refuted.
