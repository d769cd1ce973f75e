(** Proofs about the effect of [set_params]. *)
From Coq Require Import String Ascii.
From Verif Require Import Base BaseFacts Dict DictFacts ModelObjects SpecObjects ObjectFacts ObjectProp.
Open Scope list_scope.

Section WithClasses.
Variable classes : nat -> class.
Notation get_params := (get_params classes).
Notation set_params := (set_params classes).
Notation has_name := (has_name classes).
Notation known := (known classes).

(** ** A list of attribute writes *)
Definition write (h : heap) (w : nat * string * value) : heap :=
  let '(m, j, v) := w in
  if has_name h m j then match set_attr h m j v with Ok h' => h' | Err _ => h end else h.
Definition writes (h : heap) (ws : list (nat * string * value)) : heap := fold_left write ws h.

Lemma write_ok h m j v : let h' := write h (m, j, v) in
  (has_name h m j = true -> set_attr h m j v = Ok h') /\
  map o_class h' = map o_class h /\ (forall n k, known h' n k <-> known h n k) /\
  (forall n k, attr h' n k = if (n =? m) && String.eqb k j && has_name h m j then Some v else attr h n k).
Proof.
  intro h'. unfold h', write. destruct (has_name h m j) eqn:Hn.
  - pose proof Hn as Hk. apply has_name_known in Hk as [o [N K]].
    destruct (set_attr_ok h m j v o N) as [h1 [E [Ln H]]]. rewrite E. split; [auto|].
    split; [|split].
    + apply list_nth_ext; [rewrite !map_length; exact Ln|]. intros i _. rewrite !nth_error_map, H.
      destruct (Nat.eqb_spec i m) as [->|]; [rewrite N|]; reflexivity.
    + intros n k. unfold SpecObjects.known. rewrite H. destruct (Nat.eqb_spec n m) as [->|]; [|reflexivity].
      rewrite N. split; intros [o2 [E2 H2]]; injection E2 as <-.
      * exists o. split; [reflexivity|]. cbn [o_class] in H2. destruct H2 as [[v2 H2]|H2]; [|auto].
        unfold attr_of in H2. cbn [o_attrs] in H2. rewrite (dget_dset _ string_dec_ok) in H2.
        destruct (String.eqb_spec k j) as [->|]; [exact K|left; exists v2; exact H2].
      * eexists. split; [reflexivity|]. cbn [o_class]. destruct H2 as [[v2 H2]|H2]; [left|auto].
        unfold attr_of. cbn [o_attrs]. rewrite (dget_dset _ string_dec_ok). destruct (String.eqb k j); eauto.
    + intros n k. unfold attr. rewrite H, andb_true_r. destruct (Nat.eqb_spec n m) as [->|]; [|reflexivity].
      rewrite N. unfold attr_of. cbn [o_attrs]. rewrite (dget_dset _ string_dec_ok). cbn [andb]. reflexivity.
  - split; [discriminate|]. split; [reflexivity|]. split; [reflexivity|]. intros n k. rewrite andb_false_r. reflexivity.
Qed.

Lemma has_name_ext h h' : (forall n k, known h' n k <-> known h n k) -> forall n k, has_name h' n k = has_name h n k.
Proof.
  intros H n k. destruct (has_name h n k) eqn:E.
  - apply has_name_known, H, has_name_known, E.
  - destruct (has_name h' n k) eqn:E'; [|reflexivity]. apply has_name_known, H, has_name_known in E'. congruence.
Qed.

Lemma writes_ok ws : forall h, let h' := writes h ws in
  map o_class h' = map o_class h /\ (forall n k, known h' n k <-> known h n k).
Proof.
  induction ws as [|[[m j] v] ws IH]; intros h; [split; reflexivity|].
  destruct (IH (write h (m, j, v))) as [A B]. destruct (write_ok h m j v) as [_ [C [D _]]].
  cbn zeta in *. split; [exact (eq_trans A C)|]. intros n k. unfold writes in *. simpl. rewrite B. apply D.
Qed.

Lemma writes_attr_other ws : forall h m j, ~ In (m, j) (map fst ws) -> attr (writes h ws) m j = attr h m j.
Proof.
  induction ws as [|[[m0 j0] v0] ws IH]; intros h m j H; [reflexivity|].
  unfold writes in *. cbn [fold_left]. rewrite IH by (intro X; apply H; right; exact X).
  destruct (write_ok h m0 j0 v0) as [_ [_ [_ D]]]. cbn zeta in D. rewrite D.
  destruct (Nat.eqb_spec m m0) as [->|]; [|reflexivity]. destruct (String.eqb_spec j j0) as [->|]; [|reflexivity].
  exfalso. apply H. left. reflexivity.
Qed.

Lemma writes_attr ws : forall h, NoDup (map fst ws) -> forall m j v, In (m, j, v) ws ->
  attr (writes h ws) m j = if has_name h m j then Some v else attr h m j.
Proof.
  induction ws as [|[[m0 j0] v0] ws IH]; intros h Nd m j v I; [destruct I|].
  inversion Nd as [|a b Ni Nd' E]. subst a b. cbn [fst] in Ni.
  destruct (write_ok h m0 j0 v0) as [_ [_ [C D]]]. cbn zeta in C, D. unfold writes in *. cbn [fold_left].
  destruct I as [I|I].
  - injection I as -> -> ->. pose proof (writes_attr_other ws (write h (m, j, v)) m j Ni) as X. unfold writes in X. rewrite X.
    rewrite D, Nat.eqb_refl, String.eqb_refl. reflexivity.
  - rewrite (IH _ Nd' m j v I). rewrite (has_name_ext _ _ C). rewrite D.
    destruct (Nat.eqb_spec m m0) as [->|]; [|reflexivity]. destruct (String.eqb_spec j j0) as [->|]; [|reflexivity].
    exfalso. apply Ni. apply in_map_iff. exists (m0, j0, v). auto.
Qed.

Lemma writes_spec ws h : NoDup (map fst ws) -> forall m j v,
  attr (writes h ws) m j = Some v <->
  (In (m, j, v) ws /\ known h m j) \/ (attr h m j = Some v /\ ~ exists v', In (m, j, v') ws /\ known h m j).
Proof.
  intros Nd m j v.
  assert (Dec : (exists v', In (m, j, v') ws) \/ ~ In (m, j) (map fst ws)).
  { destruct (in_dec (fun a b : nat * string => ltac:(decide equality; [apply string_dec|apply Nat.eq_dec])) (m, j) (map fst ws)) as [I|I]; [|auto].
    apply in_map_iff in I as [[[m0 j0] v0] [E I]]. cbn [fst] in E. injection E as -> ->. eauto. }
  destruct Dec as [[v' I]|Ni].
  - rewrite (writes_attr ws h Nd m j v' I). destruct (has_name h m j) eqn:Hn.
    + apply has_name_known in Hn. split.
      * intro E. injection E as <-. auto.
      * intros [[I2 _]|[_ X]]; [|exfalso; apply X; eauto].
        assert (E : dget (fun a b : nat * string => (fst a =? fst b) && String.eqb (snd a) (snd b)) ws (m, j) = Some v).
        { apply dget_entry_nodup; [|exact Nd|exact I2]. intros [a1 a2] [b1 b2]. cbn [fst snd].
          rewrite andb_true_iff, Nat.eqb_eq, String.eqb_eq. split; [intros [-> ->]; reflexivity|intro E; injection E; auto]. }
        assert (E' : dget (fun a b : nat * string => (fst a =? fst b) && String.eqb (snd a) (snd b)) ws (m, j) = Some v').
        { apply dget_entry_nodup; [|exact Nd|exact I]. intros [a1 a2] [b1 b2]. cbn [fst snd].
          rewrite andb_true_iff, Nat.eqb_eq, String.eqb_eq. split; [intros [-> ->]; reflexivity|intro X; injection X; auto]. }
        congruence.
    + assert (Hk : ~ known h m j) by (intro K; apply has_name_known in K; congruence).
      split; [intro E; right; split; [exact E|]; intros [v2 [_ K]]; auto|].
      intros [[_ K]|[E _]]; [contradiction|exact E].
  - rewrite writes_attr_other by exact Ni.
    assert (Ni' : forall v', ~ In (m, j, v') ws).
    { intros v' I. apply Ni. apply in_map_iff. exists (m, j, v'). auto. }
    split; [intro E; right; split; [exact E|]; intros [v2 [I _]]; eapply Ni', I|].
    intros [[I _]|[E _]]; [exfalso; eapply Ni', I|exact E].
Qed.

(** ** First loop *)
Definition outers (l : nat) (ss : list setting) : list (nat * string * value) :=
  flat_map (fun s => match s with Outer k v => [(l, k, v)] | _ => [] end) ss.
Definition nesteds (ss : list setting) : list (string * string * value) :=
  flat_map (fun s => match s with Nested k j v => [(k, j, v)] | _ => [] end) ss.

Lemma in_outers l ss m k v : In (m, k, v) (outers l ss) <-> m = l /\ In (Outer k v) ss.
Proof.
  unfold outers. rewrite in_flat_map. split.
  - intros [[k0 v0|k0 j0 v0] [I X]]; [|destruct X]. destruct X as [X|[]]. injection X as <- <- <-. auto.
  - intros [-> I]. exists (Outer k v). split; [exact I|left; reflexivity].
Qed.
Lemma in_nesteds ss k j v : In (k, j, v) (nesteds ss) <-> In (Nested k j v) ss.
Proof.
  unfold nesteds. rewrite in_flat_map. split.
  - intros [[k0 v0|k0 j0 v0] [I X]]; [destruct X|]. destruct X as [X|[]]. injection X as <- <- <-. auto.
  - intro I. exists (Nested k j v). split; [exact I|left; reflexivity].
Qed.

Definition names_ok (ss : list setting) : Prop :=
  forall s, In s ss -> match s with Outer k _ => param_name k | Nested k j _ => param_name k /\ param_name j end.

Lemma outer_loop l ss : names_ok ss -> forall h nested,
  for_each (map kwarg_of ss) (outer_step classes l) (h, nested) = Ok (writes h (outers l ss), nested ++ nesteds ss).
Proof.
  induction ss as [|s ss IH]; intros Hn h nested; [simpl; rewrite app_nil_r; reflexivity|].
  assert (Hn' : names_ok ss) by (intros x X; apply Hn; right; exact X).
  specialize (Hn s (or_introl eq_refl)). cbn [map for_each]. destruct s as [k v|k j v]; cbn [kwarg_of]; unfold outer_step at 1.
  - rewrite (param_name_public k Hn). unfold split_param. rewrite partition_name by exact Hn.
    destruct (write_ok h l k v) as [A _]. cbn zeta in A.
    cbn [outers nesteds flat_map app]. unfold writes. cbn [fold_left].
    destruct (has_name h l k) eqn:Hk.
    + rewrite A by reflexivity. cbn [bind]. apply IH, Hn'.
    + cbn [bind]. assert (E : write h (l, k, v) = h) by (unfold write; rewrite Hk; reflexivity). rewrite E. apply IH, Hn'.
  - destruct Hn as [Pk Pj].
    assert (Hj : j <> EmptyString) by apply Pj.
    change (k ++ "__" ++ j)%string with (k ++ sep ++ j)%string.
    rewrite nested_public by (auto; apply param_name_ends, Pj). unfold split_param. rewrite partition_nested by exact Pk.
    destruct j as [|c j]; [congruence|]. cbn [bind].
    rewrite IH by exact Hn'. cbn [outers nesteds flat_map app]. rewrite <- app_assoc. reflexivity.
Qed.

(** ** Setting one attribute of an object *)
Lemma set_one_mixin lim h m j v : is_mixin classes h m -> param_name j ->
  set_params (S lim) h m [(j, v)] = Ok (write h (m, j, v)).
Proof.
  intros [o [N E]] P. cbn [ModelObjects.set_params]. rewrite (proj2 (rd_ok h m o) N). cbn [bind]. rewrite E.
  cbn [for_each]. unfold outer_step. rewrite (param_name_public j P). unfold split_param. rewrite partition_name by exact P.
  destruct (write_ok h m j v) as [A _]. cbn zeta in A. destruct (has_name h m j) eqn:Hk.
  - rewrite A by reflexivity. reflexivity.
  - cbn [bind for_each]. unfold write. rewrite Hk. reflexivity.
Qed.

Lemma get_params_flat lim h m names : flat_sk classes h m names ->
  exists ps, get_params (S lim) h true m = Ok ps /\ forall n, In n names -> dget String.eqb ps n <> None.
Proof.
  intros [o [N [E F]]]. cbn [ModelObjects.get_params]. rewrite (proj2 (rd_ok h m o) N). cbn [bind]. rewrite E.
  match goal with |- context [for_each _ ?b _] => set (body := b) end.
  assert (H : forall rest ps, incl rest names -> exists ps', for_each rest body ps = Ok ps' /\
    (forall n, In n rest \/ dget String.eqb ps n <> None -> dget String.eqb ps' n <> None)).
  { induction rest as [|k rest IH]; intros ps Hi.
    - exists ps. split; [reflexivity|]. intros n [[]|X]. exact X.
    - destruct (F k (Hi k (or_introl eq_refl))) as [_ [w [A Aw]]]. unfold attr in A. rewrite N in A.
      assert (Eb : body k ps = Ok (dset String.eqb ps k w)).
      { unfold body. rewrite A. destruct w; try reflexivity. exfalso. eapply Aw. reflexivity. }
      cbn [for_each]. rewrite Eb. cbn [bind].
      destruct (IH (dset String.eqb ps k w)) as [ps' [E' H']]; [intros x X; apply Hi; right; exact X|].
      exists ps'. split; [exact E'|]. intros n Hn. apply H'. destruct Hn as [[->|Hn]|Hn]; [right|auto|right].
      + rewrite (dget_dset_same _ string_dec_ok). discriminate.
      + rewrite (dget_dset _ string_dec_ok). destruct (String.eqb n k); [discriminate|exact Hn]. }
  destruct (H names [] (incl_refl _)) as [ps [Ep Hp]]. exists ps. split; [exact Ep|]. intros n I. apply Hp. left. exact I.
Qed.

Lemma set_one_sk lim h m names j v : flat_sk classes h m names -> In j names ->
  set_params (S (S lim)) h m [(j, v)] = Ok (write h (m, j, v)).
Proof.
  intros F I. destruct (get_params_flat lim h m names F) as [ps [Eg Hp]]. destruct F as [o [N [E F]]].
  destruct (F j I) as [P [w [A _]]].
  remember (S lim) as lim1 eqn:Hl. cbn [ModelObjects.set_params]. rewrite (proj2 (rd_ok h m o) N). cbn [bind]. rewrite E.
  rewrite Eg. cbn [bind for_each]. unfold sk_step. rewrite partition_name by exact P.
  specialize (Hp j I). unfold dmem. destruct (dget String.eqb ps j); [|congruence].
  destruct (write_ok h m j v) as [Aw _]. cbn zeta in Aw. rewrite Aw; [reflexivity|].
  apply has_name_known. exists o. split; [exact N|]. unfold attr in A. rewrite N in A. eauto.
Qed.

(** ** Second loop *)
Lemma map_class_nth h h' m o : map o_class h' = map o_class h -> nth_error h m = Some o ->
  exists o', nth_error h' m = Some o' /\ o_class o' = o_class o.
Proof.
  intros E N. assert (X : nth_error (map o_class h') m = Some (o_class o)) by (rewrite E, nth_error_map, N; reflexivity).
  rewrite nth_error_map in X. destruct (nth_error h' m) as [o'|]; [|discriminate]. injection X as X. eauto.
Qed.
Lemma is_mixin_class h h' m : map o_class h' = map o_class h -> is_mixin classes h m -> is_mixin classes h' m.
Proof.
  intros E [o [N P]]. destruct (map_class_nth h h' m o E N) as [o' [N' C]]. exists o'. split; [exact N'|]. rewrite C. exact P.
Qed.

Lemma sets_ok h l ss lim : is_mixin classes h l -> settings_ok classes h l ss ->
  exists h', set_params (S (S (S lim))) h l (map kwarg_of ss) = Ok h' /\ updated classes h l ss h'.
Proof.
  intros Hml [Hu Hn Ht Ha].
  pose proof Hml as Hml'. destruct Hml' as [o [No Epr]].
  set (h1 := writes h (outers l ss)).
  destruct (writes_ok (outers l ss) h) as [Hc1 Hk1]. fold h1 in Hc1, Hk1.
  (* outer names are unique *)
  assert (Hou : NoDup (map fst (outers l ss))).
  { clear -Hu. induction ss as [|s ss IH]; [constructor|]. cbn [map] in Hu. inversion Hu as [|a b Ni Nd E]. subst a b.
    destruct s as [k v|k j v]; [|apply IH, Nd]. cbn [outers flat_map app map fst]. constructor; [|apply IH, Nd].
    intro X. apply in_map_iff in X as [[[m k'] v'] [E X]]. cbn [fst] in E. injection E as -> ->.
    apply in_outers in X as [_ X]. apply Ni. apply in_map_iff. exists (Outer k v'). split; [reflexivity|exact X]. }
  assert (Hattr1 : forall k w, attr h1 l k = Some w -> known h l k -> target h l ss k w).
  { intros k w E K. apply writes_spec in E; [|exact Hou]. destruct E as [[I _]|[A X]].
    - left. apply in_outers in I. tauto.
    - right. split; [exact A|]. intros w' I. apply X. exists w'. split; [apply in_outers; auto|exact K]. }
  assert (Htar1 : forall k w, target h l ss k w -> known h l k -> attr h1 l k = Some w).
  { intros k w [I|[A X]] K; apply writes_spec; try exact Hou.
    - left. split; [apply in_outers; auto|exact K].
    - right. split; [exact A|]. intros [w' [I _]]. apply in_outers in I as [_ I]. eapply X, I. }
  (* the writes of the second loop *)
  set (tw := fun kjv : string * string * value => let '(k, j, v) := kjv in
     if has_name h l k then match attr h1 l k with Some (VRef m) => [(m, j, v)] | _ => [] end else []).
  set (ws := flat_map tw (nesteds ss)).
  assert (Hws : forall m j v, In (m, j, v) ws <-> exists k, In (Nested k j v) ss /\ known h l k /\ target h l ss k (VRef m)).
  { intros m j v. unfold ws. rewrite in_flat_map. split.
    - intros [[[k j0] v0] [I X]]. apply in_nesteds in I. unfold tw in X. destruct (has_name h l k) eqn:Hk; [|destruct X].
      destruct (attr h1 l k) as [[| | | | |m0| |]|] eqn:A; try solve [destruct X]. destruct X as [X|[]]. injection X as <- <- <-.
      exists k. apply has_name_known in Hk. auto.
    - intros [k [I [K T]]]. exists (k, j, v). split; [apply in_nesteds, I|]. unfold tw.
      rewrite (proj2 (has_name_known _ _ _ _) K), (Htar1 _ _ T K). left. reflexivity. }
  assert (Htf : forall k m m', target h l ss k (VRef m) -> target h l ss k (VRef m') -> known h l k -> m = m').
  { intros k m m' T T' K. apply Htar1 in T; [|exact K]. apply Htar1 in T'; [|exact K]. congruence. }
  assert (Hwl : forall m j v, In (m, j, v) ws -> m <> l).
  { intros m j v I. apply Hws in I as [k [I [K T]]]. destruct (Ht k j v I K) as [m' [T' [Hm _]]].
    rewrite (Htf k m m' T T' K). exact Hm. }
  assert (Hwu : NoDup (map fst ws)).
  { assert (G : forall ns, (forall k j v, In (k, j, v) ns -> In (Nested k j v) ss) ->
      NoDup (map fst ns) -> NoDup (map fst (flat_map tw ns))).
    { induction ns as [|[[k j] v] ns IHn]; intros Hin Nd; [constructor|]. cbn [map fst] in Nd.
      inversion Nd as [|a b Ni Nd' E]. subst a b. cbn [flat_map].
      assert (Hrest : NoDup (map fst (flat_map tw ns))) by (apply IHn; [intros; apply Hin; right; assumption|exact Nd']).
      unfold tw at 1. destruct (has_name h l k) eqn:Hk; [|exact Hrest].
      destruct (attr h1 l k) as [[| | | | |m| |]|] eqn:A; try exact Hrest. cbn [app map fst]. constructor; [|exact Hrest].
      intro X. apply in_map_iff in X as [[[m' j'] v'] [E X]]. cbn [fst] in E. injection E as -> ->.
      apply in_flat_map in X as [[[k' j'] v''] [I X]]. unfold tw in X. destruct (has_name h l k') eqn:Hk'; [|destruct X].
      destruct (attr h1 l k') as [[| | | | |m0| |]|] eqn:A'; try solve [destruct X]. destruct X as [X|[]]. injection X as -> -> ->.
      apply has_name_known in Hk. apply has_name_known in Hk'.
      assert (k = k').
      { eapply (Ha k j v k' j v' m); [apply Hin; left; reflexivity|apply Hin; right; exact I|apply Hattr1; assumption|apply Hattr1; assumption]. }
      subst k'. apply Ni. apply in_map_iff. exists (k, j, v'). auto. }
    apply G; [intros k j v I; apply in_nesteds, I|].
    clear -Hu. induction ss as [|s ss IH]; [constructor|]. cbn [map] in Hu. inversion Hu as [|a b Ni Nd E]. subst a b.
    destruct s as [k v|k j v]; [apply IH, Nd|]. cbn [nesteds flat_map app map fst]. constructor; [|apply IH, Nd].
    intro X. apply in_map_iff in X as [[[k' j'] v'] [E X]]. cbn [fst] in E. injection E as -> ->.
    apply in_nesteds in X. apply Ni. apply in_map_iff. exists (Nested k j v'). split; [reflexivity|exact X]. }
  exists (writes h1 ws). split.
  - (* the run *)
    remember (S (S lim)) as lim2 eqn:El. cbn [ModelObjects.set_params].
    rewrite (proj2 (rd_ok h l o) No). cbn [bind]. rewrite Epr, (outer_loop l ss Hn). cbn [bind app]. fold h1.
    match goal with |- for_each _ ?b _ = _ => set (body := b) end.
    assert (G : forall ns done, nesteds ss = done ++ ns ->
      for_each ns body (writes h1 (flat_map tw done)) = Ok (writes h1 (flat_map tw (done ++ ns)))).
    { induction ns as [|[[k j] v] ns IHn]; intros done Es; [rewrite app_nil_r; reflexivity|].
      assert (Es' : nesteds ss = (done ++ [(k, j, v)]) ++ ns) by (rewrite <- app_assoc; exact Es).
      replace (done ++ (k, j, v) :: ns) with ((done ++ [(k, j, v)]) ++ ns) by (rewrite <- app_assoc; reflexivity).
      assert (I : In (Nested k j v) ss).
      { apply in_nesteds. rewrite Es. apply in_or_app. right. left. reflexivity. }
      assert (Es2 : ws = flat_map tw done ++ flat_map tw ((k, j, v) :: ns)) by (unfold ws; rewrite Es; apply flat_map_app).
      set (h2 := writes h1 (flat_map tw done)).
      destruct (writes_ok (flat_map tw done) h1) as [Hc2 Hk2]. fold h2 in Hc2, Hk2.
      assert (Hnm2 : forall n x, has_name h2 n x = has_name h n x).
      { intros n x. apply has_name_ext. intros. rewrite Hk2. apply Hk1. }
      assert (Estep : body (k, j, v) h2 = Ok (writes h1 (flat_map tw (done ++ [(k, j, v)])))).
      { rewrite flat_map_app. unfold writes. rewrite fold_left_app. fold (writes h1 (flat_map tw done)). fold h2.
        cbn [flat_map]. rewrite app_nil_r. unfold body, tw. rewrite Hnm2.
        destruct (has_name h l k) eqn:Hk; [|reflexivity].
        pose proof Hk as Kk. apply has_name_known in Kk.
        destruct (Ht k j v I Kk) as [m [T [Hml2 Hkind]]].
        assert (A1 : attr h1 l k = Some (VRef m)) by (apply Htar1; assumption). rewrite A1. cbn [fold_left].
        assert (A2 : attr h2 l k = Some (VRef m)).
        { unfold h2. rewrite writes_attr_other; [exact A1|]. intro X. apply in_map_iff in X as [[[m' k'] v'] [E X]].
          cbn [fst] in E. injection E as -> ->. eapply (Hwl l k v'); [|reflexivity]. rewrite Es2. apply in_or_app. left. exact X. }
        unfold attr in A2. destruct (nth_error h2 l) as [o2|] eqn:N2; [|discriminate].
        rewrite (proj2 (rd_ok h2 l o2) N2). cbn [bind]. rewrite A2. cbn [as_ref bind].
        pose proof (Hn _ I) as [_ Pj].
        destruct Hkind as [Hmx|[names [Fl [Ij Vr]]]]; [|]; subst lim2.
        - apply set_one_mixin; [|exact Pj]. eapply is_mixin_class; [|exact Hmx]. rewrite Hc2. exact Hc1.
        - apply set_one_sk with (names := names); [|exact Ij].
          destruct Fl as [om [Nm [Em Fm]]].
          assert (Hc : map o_class h2 = map o_class h) by (rewrite Hc2; exact Hc1).
          destruct (map_class_nth h h2 m om Hc Nm) as [om2 [Nm2 Cm2]].
          exists om2. split; [exact Nm2|]. split; [rewrite Cm2; exact Em|].
          intros n In_. destruct (Fm n In_) as [Pn [w [Aw Vw]]]. split; [exact Pn|].
          assert (B : exists w2, attr h2 m n = Some w2 /\ ((In (m, n, w2) ws) \/ attr h1 m n = Some w2)).
          { assert (Hnd : NoDup (map fst (flat_map tw done))).
            { rewrite Es2, map_app in Hwu. clear -Hwu. induction (map fst (flat_map tw done)) as [|x xs IHx]; [constructor|].
              inversion Hwu as [|a b Ni Nd E]. subst a b. constructor; [|apply IHx, Nd]. intro X. apply Ni, in_or_app. auto. }
            assert (A1m : attr h1 m n = Some w).
            { unfold h1. rewrite writes_attr_other; [exact Aw|]. intro X. apply in_map_iff in X as [[[m' k'] v'] [E X]].
              cbn [fst] in E. injection E as -> ->. apply in_outers in X as [X _]. congruence. }
            destruct (attr h2 m n) as [w2|] eqn:A2m.
            - exists w2. split; [reflexivity|]. apply writes_spec in A2m; [|exact Hnd]. destruct A2m as [[X _]|[X _]]; [|auto].
              left. rewrite Es2. apply in_or_app. left. exact X.
            - exfalso. assert (K : known h2 m n).
              { apply Hk2, Hk1. exists om. split; [exact Nm|]. left. exists w. unfold attr in Aw. rewrite Nm in Aw. exact Aw. }
              assert (X : forall u, attr h2 m n <> Some u) by (intros u; rewrite A2m; discriminate).
              destruct (in_dec (fun a b : nat * string => ltac:(decide equality; [apply string_dec|apply Nat.eq_dec])) (m, n)
                (map fst (flat_map tw done))) as [Z|Z].
              + apply in_map_iff in Z as [[[m' n'] u] [E Z]]. cbn [fst] in E. injection E as -> ->.
                apply (X u). apply writes_spec; [exact Hnd|]. left. split; [exact Z|]. apply Hk2, K.
              + apply (X w). unfold h2. rewrite writes_attr_other by exact Z. exact A1m. }
          destruct B as [w2 [B1 B2]]. exists w2. split; [exact B1|]. destruct B2 as [B2|B2].
          + apply Hws in B2 as [k' [I' [K' T']]].
            assert (k' = k) by (eapply (Ha k' n w2 k j v m); eauto). subst k'.
            destruct (Ht k n w2 I' K') as [m' [T2 [_ [[ox [Nx Ex]]|[nm [_ [_ Vr2]]]]]]].
            * rewrite (Htf k m' m T2 T Kk) in Nx. rewrite Nm in Nx. injection Nx as <-. congruence.
            * exact Vr2.
          + assert (Bm : attr h m n = Some w2).
            { rewrite <- B2. symmetry. unfold h1. apply writes_attr_other. intro X.
              apply in_map_iff in X as [[[m' k'] v'] [E X]]. cbn [fst] in E. injection E as -> ->.
              apply in_outers in X as [X _]. congruence. }
            rewrite Aw in Bm. injection Bm as <-. exact Vw. }
      cbn [for_each]. rewrite Estep. cbn [bind]. apply IHn, Es'. }
    specialize (G (nesteds ss) [] eq_refl). simpl in G. exact G.
  - (* its effect *)
    destruct (writes_ok ws h1) as [Hc Hk]. split; [rewrite Hc; exact Hc1|].
    intros m j v. rewrite writes_spec by exact Hwu. unfold sets.
    assert (Hs2 : forall u, (In (m, j, u) ws /\ known h1 m j) <->
       exists k, In (Nested k j u) ss /\ known h l k /\ target h l ss k (VRef m) /\ known h m j).
    { intro u. rewrite Hws, Hk1. split; [intros [[k [A [B C]]] D]; exists k; auto|intros [k [A [B [C D]]]]; eauto]. }
    assert (Hs1 : forall u, (In (m, j, u) (outers l ss) /\ known h m j) <-> (m = l /\ In (Outer j u) ss /\ known h l j)).
    { intro u. rewrite in_outers. split; [intros [[-> A] B]; auto|intros [-> [A B]]; auto]. }
    assert (Hex : ~ ((exists u, m = l /\ In (Outer j u) ss /\ known h l j) /\
                     (exists u, exists k, In (Nested k j u) ss /\ known h l k /\ target h l ss k (VRef m) /\ known h m j))).
    { intros [[u [-> _]] [u' X]]. apply Hs2 in X as [X _]. eapply Hwl; [exact X|reflexivity]. }
    rewrite Hs2. unfold h1. rewrite writes_spec by exact Hou. rewrite Hs1. split.
    + intros [A|[[A|[A NA]] B]]; [left; right; exact A|left; left; exact A|].
      right. split; [exact A|]. intros [v' [X|X]]; [apply NA; exists v'; apply Hs1, X|apply B; exists v'; apply Hs2, X].
    + intros [[A|A]|[A NA]]; [|left; exact A|].
      * right. split; [left; exact A|]. intros [v' X]. apply Hex. split; [exists v; exact A|]. apply Hs2 in X. exists v'. exact X.
      * right. split; [right; split; [exact A|]|].
        -- intros [v' X]. apply Hs1 in X. apply NA. exists v'. left. exact X.
        -- intros [v' X]. apply Hs2 in X. apply NA. exists v'. right. exact X.
Qed.

(** ** Order of the keyword arguments *)
Lemma target_perm h l ss ss' k w : Permutation ss ss' -> target h l ss k w -> target h l ss' k w.
Proof.
  intros P [I|[A X]]; [left; eapply Permutation_in; eauto|right]. split; [exact A|].
  intros w' I. apply (X w'). eapply Permutation_in; [symmetry; exact P|exact I].
Qed.
Lemma settings_ok_perm h l ss ss' : Permutation ss ss' -> settings_ok classes h l ss -> settings_ok classes h l ss'.
Proof.
  intros P [Hu Hn Ht Ha]. pose proof (Permutation_sym P) as P'.
  constructor.
  - eapply Permutation_NoDup; [|exact Hu]. apply Permutation_map, P.
  - intros s I. apply Hn. eapply Permutation_in; [exact P'|exact I].
  - intros k j v I K. destruct (Ht k j v) as [m [T R]]; [eapply Permutation_in; [exact P'|exact I]|exact K|].
    exists m. split; [eapply target_perm; [exact P|exact T]|exact R].
  - intros k j v k' j' v' m I I' T T'. eapply (Ha k j v k' j' v' m);
      [eapply Permutation_in; [exact P'|exact I]|eapply Permutation_in; [exact P'|exact I']|
       eapply target_perm; [exact P'|exact T]|eapply target_perm; [exact P'|exact T']].
Qed.
Lemma sets_perm h l ss ss' m j v : Permutation ss ss' -> sets classes h l ss m j v -> sets classes h l ss' m j v.
Proof.
  intros P [[A [B C]]|[k [A [B [C D]]]]]; [left|right].
  - split; [exact A|]. split; [eapply Permutation_in; [exact P|exact B]|exact C].
  - exists k. split; [eapply Permutation_in; [exact P|exact A]|]. split; [exact B|].
    split; [eapply target_perm; [exact P|exact C]|exact D].
Qed.

Lemma set_order h l ss ss' lim : is_mixin classes h l -> settings_ok classes h l ss -> Permutation ss ss' ->
  exists h1 h2, set_params (S (S (S lim))) h l (map kwarg_of ss) = Ok h1 /\
    set_params (S (S (S lim))) h l (map kwarg_of ss') = Ok h2 /\ same_heap h1 h2.
Proof.
  intros M S P. destruct (sets_ok h l ss lim M S) as [h1 [E1 [C1 U1]]].
  destruct (sets_ok h l ss' lim M (settings_ok_perm h l ss ss' P S)) as [h2 [E2 [C2 U2]]].
  exists h1, h2. split; [exact E1|]. split; [exact E2|]. split; [congruence|]. intros m j.
  assert (Q : forall v, attr h1 m j = Some v <-> attr h2 m j = Some v).
  { intro v. rewrite U1, U2. pose proof (Permutation_sym P) as P'. split; intros [X|[A X]].
    - left. eapply sets_perm; eauto.
    - right. split; [exact A|]. intros [v' Y]. apply X. exists v'. eapply sets_perm; eauto.
    - left. eapply sets_perm; eauto.
    - right. split; [exact A|]. intros [v' Y]. apply X. exists v'. eapply sets_perm; eauto. }
  destruct (attr h1 m j) as [v|] eqn:A1; [symmetry; apply Q; reflexivity|].
  destruct (attr h2 m j) as [v|] eqn:A2; [|reflexivity]. exfalso. assert (X : None = Some v) by (apply Q; reflexivity). discriminate.
Qed.

(** ** Ignored names *)
Lemma set_ignored h l ps lim : is_mixin classes h l ->
  (forall key v, In (key, v) ps -> is_public key = false \/ ~ known h l (fst (partition_ key))) ->
  set_params (S lim) h l ps = Ok h.
Proof.
  intros [o [N E]] H. cbn [ModelObjects.set_params]. rewrite (proj2 (rd_ok h l o) N). cbn [bind]. rewrite E.
  assert (G : forall ps nested, (forall key v, In (key, v) ps -> is_public key = false \/ ~ known h l (fst (partition_ key))) ->
    (forall k j v, In (k, j, v) nested -> has_name h l k = false) ->
    exists nested', for_each ps (outer_step classes l) (h, nested) = Ok (h, nested') /\
      forall k j v, In (k, j, v) nested' -> has_name h l k = false).
  { clear ps H. induction ps as [|[key v] ps IH]; intros nested H Hn; [exists nested; auto|].
    assert (H' : forall key v, In (key, v) ps -> is_public key = false \/ ~ known h l (fst (partition_ key)))
      by (intros; eapply H; right; eassumption).
    cbn [for_each]. unfold outer_step at 1. destruct (is_public key) eqn:P; [|cbn [bind]; apply IH; assumption].
    destruct (H key v (or_introl eq_refl)) as [X|X]; [congruence|]. unfold split_param.
    destruct (partition_ key) as [k i] eqn:Ep. cbn [fst] in X.
    assert (Hk : has_name h l k = false).
    { destruct (has_name h l k) eqn:Hk; [|reflexivity]. exfalso. apply X, has_name_known, Hk. }
    destruct (match i with Some s => s | None => EmptyString end) as [|c j].
    - rewrite Hk. cbn [bind]. apply IH; assumption.
    - cbn [bind]. apply IH; [assumption|]. intros k' j' v' I. apply in_app_or in I as [I|[I|[]]]; [eapply Hn; eauto|].
      injection I as <- _ _. exact Hk. }
  destruct (G ps [] H) as [nested [En Hn]]; [intros k j v []|]. rewrite En. cbn [bind]. apply for_each_const.
  intros [[k j] v] I. rewrite (Hn k j v I). reflexivity.
Qed.

(** ** Setting one parameter and reading it back *)
Lemma visible_mixin h l k o : nth_error h l = Some o -> c_protocol (classes (o_class o)) = Mixin ->
  (visible classes h l k <-> param_name k /\ exists v, attr h l k = Some v).
Proof.
  intros N E. unfold visible, attr. rewrite N. split.
  - intros [o' [E' V]]. injection E' as <-. rewrite E in V. exact V.
  - intro V. exists o. split; [reflexivity|]. rewrite E. exact V.
Qed.

Lemma set_get h rank l k v lim : heap_ok classes h rank -> is_mixin classes h l -> param_name k ->
  (exists w, attr h l k = Some w) ->
  (forall r, v = VRef r -> r < length h /\ rank r < rank l) -> rank l < lim -> 2 < lim ->
  exists h' ps ps', set_params lim h l [(k, v)] = Ok h' /\ heap_ok classes h' rank /\
    get_params lim h true l = Ok ps /\ get_params lim h' true l = Ok ps' /\
    dget String.eqb ps' k = Some v /\
    forall key, key <> k -> (forall j, key <> (k ++ "__" ++ j)%string) -> dget String.eqb ps' key = dget String.eqb ps key.
Proof.
  intros W M Pk [w A] Hv Hl Hl2. pose proof M as M'. destruct M' as [o [No Epr]].
  unfold attr in A. rewrite No in A.
  assert (K : has_name h l k = true) by (apply has_name_known; exists o; split; [exact No|left; eauto]).
  destruct (set_attr_ok h l k v o No) as [h' [Es [Ln Hnth]]].
  set (o' := mkobj (o_class o) (dset String.eqb (o_attrs o) k v)) in *.
  assert (Ew : write h (l, k, v) = h') by (unfold write; rewrite K, Es; reflexivity).
  assert (Hp : has_protocol classes h l) by (exists o; split; [exact No|congruence]).
  assert (No' : nth_error h' l = Some o') by (rewrite Hnth, Nat.eqb_refl; reflexivity).
  assert (Hp' : has_protocol classes h' l) by (exists o'; split; [exact No'|cbn [o_class o']; congruence]).
  assert (Hother : forall m, m <> l -> nth_error h' m = nth_error h m).
  { intros m Hm. rewrite Hnth. destruct (Nat.eqb_spec m l); [congruence|reflexivity]. }
  assert (Hin : forall k' u, In (k', u) (o_attrs o') -> (k' = k /\ u = v) \/ In (k', u) (o_attrs o)).
  { intros k' u I. cbn [o_attrs o'] in I. clear -I. induction (o_attrs o) as [|[k0 v0] ds IH]; simpl in I.
    - destruct I as [I|[]]. injection I as <- <-. auto.
    - destruct (String.eqb_spec k k0) as [<-|].
      + destruct I as [I|I]; [injection I as <- <-; auto|right; right; exact I].
      + destruct I as [I|I]; [right; left; exact I|]. destruct (IH I); [auto|right; right; assumption]. }
  assert (W' : heap_ok classes h' rank).
  { destruct (ho_names _ _ _ W l o No) as [Nd Nm]. constructor.
    - intros m x N. destruct (Nat.eq_dec m l) as [->|Hm].
      + rewrite No' in N. injection N as <-. split.
        * cbn [o_attrs o']. apply (dkeys_dset_nodup _ string_dec_ok), Nd.
        * intros k' u I P. destruct (Hin k' u I) as [[-> _]|I']; [exact Pk|eapply Nm; eauto].
      + rewrite Hother in N by exact Hm. apply (ho_names _ _ _ W m x N).
    - intros m k' r V B. rewrite Ln. destruct (Nat.eq_dec m l) as [->|Hm].
      + unfold attr in B. rewrite No' in B. unfold attr_of in B. cbn [o_attrs o'] in B.
        rewrite (dget_dset _ string_dec_ok) in B. destruct (String.eqb_spec k' k) as [->|Hne].
        * injection B as ->. apply Hv. reflexivity.
        * apply (ho_refs _ _ _ W l k' r); [|unfold attr; rewrite No; exact B].
          apply (visible_mixin h l k' o No Epr). split; [|unfold attr; rewrite No; eauto].
          destruct V as [o2 [N2 V]]. rewrite No' in N2. injection N2 as <-. cbn [o_class o'] in V. rewrite Epr in V. apply V.
      + apply (ho_refs _ _ _ W m k' r).
        * destruct V as [o2 [N2 V]]. rewrite Hother in N2 by exact Hm. exists o2. auto.
        * unfold attr in B |- *. rewrite Hother in B by exact Hm. exact B.
    - intros m x names N E. destruct (Nat.eq_dec m l) as [->|Hm].
      + rewrite No' in N. injection N as <-. cbn [o_class o'] in E. congruence.
      + rewrite Hother in N by exact Hm. apply (ho_sk _ _ _ W m x names N E). }
  destruct (get_params_ok classes h rank W lim l Hl Hp) as [ps [Eg [Nd Rep]]].
  destruct (get_params_ok classes h' rank W' lim l Hl Hp') as [ps' [Eg' [Nd' Rep']]].
  assert (Ak : attr h' l k = Some v).
  { unfold attr. rewrite No'. apply (dget_dset_same _ string_dec_ok). }
  assert (Aother : forall k', k' <> k -> attr h' l k' = attr h l k').
  { intros k' Hk. unfold attr. rewrite No', No. apply (dget_dset_other _ string_dec_ok), Hk. }
  (* objects below [l] are unchanged *)
  assert (Vsame : forall m k', m <> l -> (visible classes h' m k' <-> visible classes h m k')).
  { intros m k' Hm. unfold visible. rewrite Hother by exact Hm. reflexivity. }
  assert (Asame : forall m k', m <> l -> attr h' m k' = attr h m k').
  { intros m k' Hm. unfold attr. rewrite Hother by exact Hm. reflexivity. }
  assert (Psame : forall m, m <> l -> (has_protocol classes h' m <-> has_protocol classes h m)).
  { intros m Hm. unfold has_protocol. rewrite Hother by exact Hm. reflexivity. }
  assert (Rsame1 : forall m key u, resolves classes h m key u -> rank m < rank l -> resolves classes h' m key u).
  { intros m key u R. induction R as [m k' u V B|m k' m' j u V B P R IH]; intro Hr;
      (assert (Hm : m <> l) by (intros ->; lia)).
    - apply res_here; [apply Vsame; assumption|rewrite Asame; assumption].
    - destruct (ho_refs _ _ _ W _ _ _ V B) as [_ Hrm].
      eapply res_nested; [apply Vsame; eassumption|rewrite Asame; eassumption|apply Psame; [intros ->; lia|exact P]|apply IH; lia]. }
  assert (Rsame2 : forall m key u, resolves classes h' m key u -> rank m < rank l -> resolves classes h m key u).
  { intros m key u R. induction R as [m k' u V B|m k' m' j u V B P R IH]; intro Hr;
      (assert (Hm : m <> l) by (intros ->; lia)).
    - apply res_here; [apply Vsame; assumption|rewrite <- Asame; assumption].
    - destruct (ho_refs _ _ _ W' _ _ _ V B) as [_ Hrm].
      eapply res_nested; [apply Vsame; eassumption|rewrite <- Asame; eassumption|apply Psame; [intros ->; lia|exact P]|apply IH; lia]. }
  assert (Epr' : c_protocol (classes (o_class o')) = Mixin) by exact Epr.
  exists h', ps, ps'. split; [|split; [exact W'|split; [exact Eg|split; [exact Eg'|split]]]].
  - destruct lim as [|lim]; [lia|]. rewrite set_one_mixin; [rewrite Ew; reflexivity|exact M|exact Pk].
  - apply Rep', res_here; [|exact Ak]. apply (visible_mixin h' l k o' No' Epr'). eauto.
  - intros key H1 H2.
    assert (Q : forall u, resolves classes h' l key u <-> resolves classes h l key u).
    { intro u. split; intro R.
      - destruct (resolves_cases _ _ _ _ _ R) as [[V B]|[k' [m [j [-> [V [B [P Rj]]]]]]]].
        + apply (visible_mixin h' l key o' No' Epr') in V as [Pk' V]. rewrite Aother in V, B by exact H1.
          apply res_here; [apply (visible_mixin h l key o No Epr); auto|exact B].
        + assert (k' <> k) by (intros ->; eapply H2; reflexivity).
          apply (visible_mixin h' l k' o' No' Epr') in V as [Pk' V]. rewrite Aother in V, B by assumption.
          assert (V0 : visible classes h l k') by (apply (visible_mixin h l k' o No Epr); auto).
          destruct (ho_refs _ _ _ W _ _ _ V0 B) as [_ Hrm].
          eapply res_nested; [exact V0|exact B|apply Psame; [intros ->; lia|exact P]|apply Rsame2; assumption].
      - destruct (resolves_cases _ _ _ _ _ R) as [[V B]|[k' [m [j [-> [V [B [P Rj]]]]]]]].
        + apply (visible_mixin h l key o No Epr) in V as [Pk' V]. rewrite <- Aother in V, B by exact H1.
          apply res_here; [apply (visible_mixin h' l key o' No' Epr'); auto|exact B].
        + assert (k' <> k) by (intros ->; eapply H2; reflexivity).
          destruct (ho_refs _ _ _ W _ _ _ V B) as [_ Hrm].
          apply (visible_mixin h l k' o No Epr) in V as [Pk' V]. rewrite <- Aother in V, B by assumption.
          eapply res_nested; [apply (visible_mixin h' l k' o' No' Epr'); auto|exact B|apply Psame; [intros ->; lia|exact P]|apply Rsame1; assumption]. }
    destruct (dget String.eqb ps key) as [u|] eqn:E1.
    + apply Rep', Q, Rep, E1.
    + destruct (dget String.eqb ps' key) as [u|] eqn:E2; [|reflexivity]. apply Rep', Q, Rep in E2. congruence.
Qed.

(** A nested name through something that is not an object raises. *)
Lemma set_nested_not_object h l k j v w lim : is_mixin classes h l -> param_name k -> param_name j ->
  attr h l k = Some w -> (forall r, w <> VRef r) ->
  set_params (S lim) h l [((k ++ "__" ++ j)%string, v)] = Err AttributeError.
Proof.
  intros [o [N E]] Pk Pj A Hw. cbn [ModelObjects.set_params]. rewrite (proj2 (rd_ok h l o) N). cbn [bind]. rewrite E.
  pose proof (outer_loop l [Nested k j v]) as X. cbn [map kwarg_of] in X. rewrite X.
  - cbn [nesteds flat_map app bind for_each outers writes fold_left].
    unfold attr in A. rewrite N in A.
    assert (K : has_name h l k = true) by (apply has_name_known; exists o; split; [exact N|left; eauto]).
    rewrite K, (proj2 (rd_ok h l o) N). cbn [bind]. rewrite A. destruct w; try reflexivity. exfalso. eapply Hw. reflexivity.
  - intros s [<-|[]]. auto.
Qed.
End WithClasses.
