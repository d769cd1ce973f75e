(** Lemmas about parameters of objects. *)
From Coq Require Import String Ascii.
From Verif Require Import Base BaseFacts Dict DictFacts ModelObjects SpecObjects.
Open Scope list_scope.

Lemma string_dec_ok : decides_eq String.eqb.
Proof. intros x y. apply String.eqb_eq. Qed.

(** ** Names *)
Lemma app_cancel (a b c : string) : (a ++ b = a ++ c)%string -> b = c.
Proof. induction a as [|x a IH]; simpl; auto. intro H. injection H. exact IH. Qed.
Lemma app_assoc_s (a b c : string) : (a ++ b ++ c = (a ++ b) ++ c)%string.
Proof. induction a as [|x a IH]; simpl; auto. rewrite IH. reflexivity. Qed.

Lemma starts_us_spec k : starts_us k = true <-> exists r, k = ("_" ++ r)%string.
Proof.
  destruct k as [|c k]; simpl; [split; [discriminate|intros [r H]; discriminate]|].
  rewrite Ascii.eqb_eq. split; [intros ->; exists k; reflexivity|intros [r H]; injection H; auto].
Qed.
Lemma ends_us_cons c k : k <> EmptyString -> ends_us (String c k) = ends_us k.
Proof. destruct k; [congruence|reflexivity]. Qed.
Lemma ends_us_spec k : ends_us k = true <-> exists r, k = (r ++ "_")%string.
Proof.
  induction k as [|c k IH]; [simpl; split; [discriminate|intros [[|] H]; discriminate]|].
  destruct k as [|d k].
  - simpl. rewrite Ascii.eqb_eq. split; [intros ->; exists EmptyString; reflexivity|].
    intros [[|x r] H]; [injection H; auto|]. injection H as _ H. destruct r; discriminate.
  - rewrite ends_us_cons by discriminate. rewrite IH. split; intros [r H].
    + exists (String c r). simpl. rewrite H. reflexivity.
    + destruct r as [|x r]; [discriminate|]. injection H as _ H. exists r. exact H.
Qed.
Lemma ends_us_app a b : b <> EmptyString -> ends_us (a ++ b) = ends_us b.
Proof.
  intro Hb. induction a as [|c a IH]; auto. cbn [append]. rewrite ends_us_cons; [exact IH|].
  destruct a; [exact Hb|discriminate].
Qed.

Lemma param_name_public k : param_name k -> is_public k = true.
Proof.
  intros [_ [_ [A B]]]. unfold is_public. destruct (starts_us k) eqn:E.
  - apply starts_us_spec in E as [r E]. exfalso. eapply A, E.
  - destruct (ends_us k) eqn:F; auto. apply ends_us_spec in F as [r F]. exfalso. eapply B, F.
Qed.
Lemma param_name_ends k : param_name k -> ends_us k = false.
Proof. intro H. apply param_name_public in H. unfold is_public in H. destruct (ends_us k); auto. rewrite andb_false_r in H. discriminate. Qed.

Lemma no_sep_tail c k : no_sep (String c k) -> no_sep k.
Proof. intros H a b E. apply (H (String c a) b). rewrite E. reflexivity. Qed.

Lemma partition_none k : no_sep k -> partition_ k = (k, None).
Proof.
  induction k as [|c k IH]; auto. intro H. destruct k as [|d k]; [reflexivity|].
  change (partition_ (String c (String d k))) with
    (if Ascii.eqb c underscore && Ascii.eqb d underscore then (EmptyString, Some k)
     else let '(o, i) := partition_ (String d k) in (String c o, i)).
  destruct (Ascii.eqb c underscore && Ascii.eqb d underscore) eqn:E.
  - apply andb_true_iff in E as [E1 E2]. rewrite Ascii.eqb_eq in E1, E2. subst. exfalso.
    apply (H EmptyString k). reflexivity.
  - rewrite IH by (eapply no_sep_tail, H). reflexivity.
Qed.

Lemma partition_sep k j : no_sep k -> ends_us k = false -> partition_ (k ++ sep ++ j) = (k, Some j).
Proof.
  intros H E. induction k as [|c k IH]; [reflexivity|]. destruct k as [|d k].
  - simpl in E. cbn [append]. change (partition_ (String c (sep ++ j))) with
      (if Ascii.eqb c underscore && true then (EmptyString, Some (String underscore j)) else (String c EmptyString, Some j)).
    rewrite E. reflexivity.
  - cbn [append] in *. change (partition_ (String c (String d (k ++ sep ++ j)))) with
      (if Ascii.eqb c underscore && Ascii.eqb d underscore then (EmptyString, Some (k ++ sep ++ j)%string)
       else let '(o, i) := partition_ (String d (k ++ sep ++ j)) in (String c o, i)).
    destruct (Ascii.eqb c underscore && Ascii.eqb d underscore) eqn:F.
    + apply andb_true_iff in F as [E1 E2]. rewrite Ascii.eqb_eq in E1, E2. subst. exfalso.
      apply (H EmptyString k). reflexivity.
    + rewrite IH; [reflexivity|eapply no_sep_tail, H|]. rewrite ends_us_cons in E by discriminate. exact E.
Qed.

Lemma partition_name k : param_name k -> partition_ k = (k, None).
Proof. intros [_ [H _]]. apply partition_none, H. Qed.
Lemma partition_nested k j : param_name k -> partition_ (k ++ sep ++ j) = (k, Some j).
Proof. intro H. apply partition_sep; [apply H|apply param_name_ends, H]. Qed.

Lemma nested_inj k j k' j' : param_name k -> param_name k' -> (k ++ sep ++ j = k' ++ sep ++ j')%string -> k = k' /\ j = j'.
Proof.
  intros H H' E. pose proof (partition_nested k j H) as A. rewrite E, partition_nested in A by exact H'. injection A. auto.
Qed.
Lemma nested_not_name k j k' : param_name k -> param_name k' -> (k ++ sep ++ j)%string <> k'.
Proof.
  intros H H' E. pose proof (partition_nested k j H) as A. rewrite E, partition_name in A by exact H'. discriminate.
Qed.
Lemma nested_public k j : param_name k -> j <> EmptyString -> ends_us j = false -> is_public (k ++ sep ++ j) = true.
Proof.
  intros Hk Hj Ej. pose proof (param_name_public k Hk) as P. unfold is_public in *.
  apply andb_true_iff in P as [P _]. rewrite !ends_us_app; auto; [|intro H; destruct j; discriminate].
  rewrite Ej, andb_true_r. destruct k as [|c k]; [destruct Hk; congruence|exact P].
Qed.

(** ** Dictionaries *)
Lemma dset_same (d : list (string * value)) k v : dget String.eqb d k = Some v -> dset String.eqb d k v = d.
Proof.
  induction d as [|[k' v'] d IH]; simpl; [discriminate|]. destruct (String.eqb_spec k k').
  - intro H. injection H as ->. reflexivity.
  - intro H. rewrite IH by exact H. reflexivity.
Qed.

Section WithClasses.
Variable classes : nat -> class.
Notation get_params := (get_params classes).
Notation set_params := (set_params classes).
Notation visible := (visible classes).
Notation resolves := (resolves classes).
Notation has_protocol := (has_protocol classes).
Notation heap_ok := (heap_ok classes).

Lemma add_nested_get k nested : NoDup (dkeys nested) -> forall ps,
  (forall j, dget String.eqb (add_nested k nested ps) (k ++ sep ++ j)%string =
     match dget String.eqb nested j with Some v => Some v | None => dget String.eqb ps (k ++ sep ++ j)%string end) /\
  (forall key, (forall j, key <> (k ++ sep ++ j)%string) ->
     dget String.eqb (add_nested k nested ps) key = dget String.eqb ps key).
Proof.
  unfold add_nested. induction nested as [|[j0 v0] nested IH]; intros Hn ps; [split; auto|].
  inversion Hn as [|a b Hni Hn' E]. subst a b. destruct (IH Hn' (dset String.eqb ps (k ++ sep ++ j0)%string v0)) as [A B].
  cbn [fold_left fst snd dget]. split.
  - intro j. rewrite A. destruct (String.eqb_spec j j0) as [->|Hj].
    + replace (dget String.eqb nested j0) with (@None value).
      * apply dget_dset_same, string_dec_ok.
      * symmetry. apply (dget_none _ string_dec_ok). exact Hni.
    + destruct (dget String.eqb nested j); auto. apply dget_dset_other; [apply string_dec_ok|].
      intro E. apply app_cancel in E. apply app_cancel in E. auto.
  - intros key Hk. rewrite B by exact Hk. apply dget_dset_other; [apply string_dec_ok|apply Hk].
Qed.
Lemma add_nested_nodup k nested : forall ps, NoDup (dkeys ps) -> NoDup (dkeys (add_nested k nested ps)).
Proof.
  unfold add_nested. induction nested as [|[j v] nested IH]; intros ps H; [exact H|]. simpl. apply IH.
  apply dkeys_dset_nodup; [apply string_dec_ok|exact H].
Qed.

(** ** get_params *)
(** Entries that the attribute [k = w] contributes. *)
Definition entry (h : heap) (k : string) (w : value) (key : string) (v : value) : Prop :=
  (key = k /\ v = w) \/
  exists l' j, w = VRef l' /\ has_protocol h l' /\ key = (k ++ sep ++ j)%string /\ resolves h l' j v.

Lemma entry_name h k w key v k' w' v' : param_name k -> param_name k' ->
  entry h k w key v -> entry h k' w' key v' -> k = k'.
Proof.
  intros Hk Hk' [[-> ->]|[l1 [j1 [-> [_ [-> _]]]]]] [[E1 E2]|[l2 [j2 [-> [_ [E _]]]]]].
  - exact E1.
  - exfalso. eapply nested_not_name; [| |symmetry; exact E]; assumption.
  - exfalso. eapply nested_not_name; [| |exact E1]; assumption.
  - apply nested_inj in E; tauto.
Qed.

Definition represents (h : heap) (l : nat) (ps : list (string * value)) : Prop :=
  NoDup (dkeys ps) /\ forall key v, dget String.eqb ps key = Some v <-> resolves h l key v.

Lemma resolves_entry h l o : nth_error h l = Some o ->
  forall key v, resolves h l key v <-> exists k w, visible h l k /\ attr_of o k = Some w /\ entry h k w key v.
Proof.
  intros No key v. split.
  - intro R. destruct R as [l0 k v V A|l0 k l' j v V A P R]; unfold attr in A; rewrite No in A.
    + exists k, v. split; [exact V|]. split; [exact A|]. left. auto.
    + exists k, (VRef l'). split; [exact V|]. split; [exact A|]. right. exists l', j. auto.
  - intros [k [w [V [A [[-> ->]|[l' [j [-> [P [-> R]]]]]]]]]].
    + apply res_here; [exact V|]. unfold attr. rewrite No. exact A.
    + eapply res_nested; eauto. unfold attr. rewrite No. exact A.
Qed.

Lemma protocol_of_ref h l : has_protocol h l <-> protocol_of classes h (VRef l) <> NoProtocol.
Proof.
  unfold SpecObjects.has_protocol, protocol_of. destruct (nth_error h l) as [o|].
  - split; [intros [o' [E H]]; injection E as <-; exact H|eauto].
  - split; [intros [o [E _]]; discriminate|congruence].
Qed.

(** One attribute more, in either order of insertion. *)
Lemma entries_step h ps1 ps2 done k w :
  (forall key v, dget String.eqb ps1 key = Some v <->
     exists k' w', In (k', w') done /\ entry h k' w' key v) ->
  (forall k' w', In (k', w') done -> param_name k') -> param_name k -> ~ In k (map fst done) ->
  (forall key v, entry h k w key v -> dget String.eqb ps2 key = Some v) ->
  (forall key v, ~ (exists v', entry h k w key v') -> dget String.eqb ps2 key = Some v -> dget String.eqb ps1 key = Some v) ->
  (forall key v, dget String.eqb ps1 key = Some v -> ~ (exists v', entry h k w key v') -> dget String.eqb ps2 key = Some v) ->
  (forall key, (exists v', entry h k w key v') \/ ~ (exists v', entry h k w key v')) ->
  forall key v, dget String.eqb ps2 key = Some v <->
     exists k' w', In (k', w') (done ++ [(k, w)]) /\ entry h k' w' key v.
Proof.
  intros H1 Hn Hk Hni A B C D key v. split.
  - intro G. destruct (D key) as [[v' E]|N].
    + pose proof (A _ _ E) as G'. rewrite G in G'. injection G' as <-. exists k, w.
      split; [apply in_or_app; right; left; reflexivity|exact E].
    + apply B in G; [|exact N]. apply H1 in G as [k' [w' [I E]]]. exists k', w'. split; [apply in_or_app; auto|exact E].
  - intros [k' [w' [I E]]]. apply in_app_or in I as [I|[I|[]]].
    + apply C; [apply H1; eauto|]. intros [v' E'].
      assert (k = k') by (eapply entry_name; [exact Hk|eapply Hn, I|exact E'|exact E]). subst k'.
      apply Hni. apply in_map_iff. exists (k, w'). auto.
    + injection I as <- <-. apply A, E.
Qed.

Lemma get_params_ok h rank : heap_ok h rank -> forall lim l, rank l < lim -> has_protocol h l ->
  exists ps, get_params lim h true l = Ok ps /\ represents h l ps.
Proof.
  intros W. induction lim as [|lim IH]; intros l Hl Hp; [lia|]. cbn [ModelObjects.get_params].
  destruct Hp as [o [No Pr]]. rewrite (proj2 (rd_ok h l o) No). cbn [bind].
  destruct (ho_names _ _ _ W l o No) as [Nd Nm].
  assert (Hnest : forall k w, visible h l k -> In (k, w) (o_attrs o) -> forall l', w = VRef l' -> has_protocol h l' ->
    exists nested, get_params lim h true l' = Ok nested /\ represents h l' nested).
  { intros k w V I l' -> P. destruct (ho_refs _ _ _ W l k l' V).
    - unfold attr. rewrite No. apply (dget_entry_nodup _ string_dec_ok); [exact Nd|exact I].
    - apply IH; [lia|exact P]. }
  (* effect of one attribute whose dictionary entries are added *)
  assert (Hdec : forall k w (nested : list (string*value)), param_name k ->
     (forall key v, entry h k w key v <-> (key = k /\ v = w) \/
        exists j, key = (k ++ sep ++ j)%string /\ dget String.eqb nested j = Some v) ->
     forall key, (exists v', entry h k w key v') \/ ~ (exists v', entry h k w key v')).
  { intros k w nested Hk E key. destruct (String.eqb_spec key k) as [->|Hne].
    - left. exists w. apply E. auto.
    - destruct (partition_ key) as [k' [j|]] eqn:Ep.
      + destruct (string_dec key (k ++ sep ++ j)%string) as [->|Hs].
        * destruct (dget String.eqb nested j) as [v|] eqn:Eg.
          -- left. exists v. apply E. right. eauto.
          -- right. intros [v Ev]. apply E in Ev as [[X _]|[j' [X Y]]]; [auto|].
             apply app_cancel in X. apply app_cancel in X. subst. congruence.
        * right. intros [v Ev]. apply E in Ev as [[X _]|[j' [X Y]]]; [auto|]. subst key.
          rewrite partition_nested in Ep by exact Hk. injection Ep as <- <-. auto.
      + right. intros [v Ev]. apply E in Ev as [[X _]|[j' [X Y]]]; [auto|]. subst key.
        rewrite partition_nested in Ep by exact Hk. discriminate. }
  (* entries of an attribute, from the nested dictionary *)
  assert (Hentry : forall k w, visible h l k -> In (k, w) (o_attrs o) ->
     (protocol_of classes h w = NoProtocol /\ forall key v, entry h k w key v <-> (key = k /\ v = w)) \/
     (exists l' nested, w = VRef l' /\ protocol_of classes h w <> NoProtocol /\ get_params lim h true l' = Ok nested /\
        NoDup (dkeys nested) /\
        forall key v, entry h k w key v <-> (key = k /\ v = w) \/
          exists j, key = (k ++ sep ++ j)%string /\ dget String.eqb nested j = Some v)).
  { intros k w V I.
    assert (HN : protocol_of classes h w = NoProtocol -> forall key v, entry h k w key v <-> (key = k /\ v = w)).
    { intros HN key v. unfold entry. split; [|auto]. intros [H|[l' [j [-> [P _]]]]]; [exact H|].
      apply protocol_of_ref in P. contradiction. }
    destruct w as [| | | | |l'| |]; try (left; split; [reflexivity|apply HN; reflexivity]).
    destruct (protocol_of classes h (VRef l')) eqn:Ep; [right|right|left; auto];
      (assert (P : has_protocol h l') by (apply protocol_of_ref; congruence));
      destruct (Hnest k (VRef l') V I l' eq_refl P) as [nested [G [Nn R]]];
      exists l', nested; repeat (split; [first [reflexivity|congruence|assumption]|]); intros key v;
      unfold entry; (split;
        [intros [H|[l2 [j [E [_ [-> Rj]]]]]]; [left; exact H|right; injection E as <-; exists j; split; [reflexivity|apply R, Rj]]
        |intros [H|[j [-> Gj]]]; [left; exact H|right; exists l', j; repeat split; auto; apply R, Gj]]). }
  destruct (c_protocol (classes (o_class o))) as [|names|] eqn:Epr; [| |congruence].
  - (* ParamsMixin *)
    match goal with |- context [for_each _ ?b _] => set (body := b) end.
    assert (H : forall rest done ps, o_attrs o = done ++ rest -> NoDup (dkeys ps) ->
      (forall key v, dget String.eqb ps key = Some v <->
         exists k w, In (k, w) (filter (fun p => is_public (fst p)) done) /\ entry h k w key v) ->
      exists ps', for_each rest body ps = Ok ps' /\ NoDup (dkeys ps') /\
        forall key v, dget String.eqb ps' key = Some v <->
         exists k w, In (k, w) (filter (fun p => is_public (fst p)) (done ++ rest)) /\ entry h k w key v).
    { induction rest as [|[k w] rest IHr]; intros done ps Eo Np Hps.
      - exists ps. rewrite app_nil_r. auto.
      - cbn [for_each].
        assert (I : In (k, w) (o_attrs o)) by (rewrite Eo; apply in_or_app; right; left; reflexivity).
        assert (Eo' : o_attrs o = (done ++ [(k, w)]) ++ rest) by (rewrite <- app_assoc; exact Eo).
        replace (done ++ (k, w) :: rest) with ((done ++ [(k, w)]) ++ rest) by (rewrite <- app_assoc; reflexivity).
        destruct (is_public k) eqn:Pk.
        + assert (Hk : param_name k) by (eapply Nm; eauto).
          assert (Hni : ~ In k (map fst (filter (fun p => is_public (fst p)) done))).
          { intro X. apply in_map_iff in X as [[k' w'] [X1 X2]]. simpl in X1. subst k'. apply filter_In in X2 as [X2 _].
            rewrite Eo, map_app in Nd. simpl in Nd. apply NoDup_remove_2 in Nd. apply Nd.
            apply in_or_app. left. apply in_map_iff. exists (k, w'). auto. }
          assert (Hnm : forall k' w', In (k', w') (filter (fun p => is_public (fst p)) done) -> param_name k').
          { intros k' w' X. apply filter_In in X as [X Y]. eapply Nm; [|exact Y]. rewrite Eo. apply in_or_app. left. exact X. }
          assert (Ef : filter (fun p : string * value => is_public (fst p)) (done ++ [(k, w)]) =
                       filter (fun p => is_public (fst p)) done ++ [(k, w)]).
          { rewrite filter_app. simpl. rewrite Pk. reflexivity. }
          assert (Nk : forall key, key <> k -> dget String.eqb (dset String.eqb ps k w) key = dget String.eqb ps key)
            by (intros; apply dget_dset_other; [apply string_dec_ok|assumption]).
          assert (V : visible h l k).
          { exists o. split; [exact No|]. rewrite Epr. split; [exact Hk|]. exists w.
            apply (dget_entry_nodup _ string_dec_ok); [exact Nd|exact I]. }
          destruct (Hentry k w V I) as [[Pn HE]|[l' [nested [-> [Pn [G [Nn HE]]]]]]].
          * assert (Eb : body (k, w) ps = Ok (dset String.eqb ps k w)).
            { unfold body. rewrite Pk. destruct w; try reflexivity. rewrite Pn. reflexivity. }
            rewrite Eb. cbn [bind]. apply IHr; [exact Eo'|apply dkeys_dset_nodup; [apply string_dec_ok|exact Np]|].
            rewrite Ef. apply entries_step with (ps1 := ps); auto.
            -- intros key v E. apply HE in E as [-> ->]. apply dget_dset_same, string_dec_ok.
            -- intros key v N. rewrite Nk; auto. intros ->. apply N. exists w. apply HE. auto.
            -- intros key v G N. rewrite Nk; auto. intros ->. apply N. exists w. apply HE. auto.
            -- apply (Hdec k w []); [exact Hk|]. intros key v. rewrite HE. split; [auto|].
               intros [X|[j [_ X]]]; [exact X|discriminate].
          * assert (Eb : body (k, VRef l') ps = Ok (add_nested k nested (dset String.eqb ps k (VRef l')))).
            { unfold body. rewrite Pk. destruct (protocol_of classes h (VRef l')); try congruence; rewrite G; reflexivity. }
            rewrite Eb. cbn [bind].
            destruct (add_nested_get k nested Nn (dset String.eqb ps k (VRef l'))) as [A B].
            apply IHr; [exact Eo'|apply add_nested_nodup, dkeys_dset_nodup; [apply string_dec_ok|exact Np]|].
            rewrite Ef.
            assert (B' : forall key, ~ (exists v', entry h k (VRef l') key v') ->
               dget String.eqb (add_nested k nested (dset String.eqb ps k (VRef l'))) key = dget String.eqb ps key).
            { intros key N. assert (key <> k) by (intros ->; apply N; exists (VRef l'); apply HE; auto).
              destruct (partition_ key) as [k' sub] eqn:Ep.
              destruct sub as [j|].
              - destruct (string_dec key (k ++ sep ++ j)%string) as [->|Hs].
                + rewrite A. destruct (dget String.eqb nested j) eqn:Eg; [exfalso; apply N; exists v; apply HE; right; eauto|].
                  apply Nk, nested_not_name; assumption.
                + rewrite B; [apply Nk; assumption|]. intros j' ->. rewrite partition_nested in Ep by exact Hk.
                  injection Ep as <- <-. auto.
              - rewrite B; [apply Nk; assumption|]. intros j' ->. rewrite partition_nested in Ep by exact Hk. discriminate. }
            apply entries_step with (ps1 := ps); auto.
            -- intros key v E. apply HE in E as [[-> ->]|[j [-> Gj]]].
               ++ rewrite B; [apply dget_dset_same, string_dec_ok|]. intros j X. symmetry in X.
                  revert X. apply nested_not_name; exact Hk.
               ++ rewrite A, Gj. reflexivity.
            -- intros key v N X. rewrite B' in X by exact N. exact X.
            -- intros key v X N. rewrite B' by exact N. exact X.
            -- apply (Hdec k (VRef l') nested); assumption.
        + assert (Eb : body (k, w) ps = Ok ps) by (unfold body; rewrite Pk; reflexivity).
          rewrite Eb. cbn [bind]. apply IHr; [exact Eo'|exact Np|]. intros key v. rewrite Hps, filter_app. simpl. rewrite Pk, app_nil_r.
          reflexivity. }
    destruct (H (o_attrs o) [] [] eq_refl) as [ps [E [N R]]].
    { constructor. }
    { intros key v. simpl. split; [discriminate|intros [k [w [[] _]]]]. }
    exists ps. split; [exact E|]. split; [exact N|]. intros key v. rewrite R.
    rewrite (resolves_entry h l o No). simpl. split; intros [k [w Hx]].
    + destruct Hx as [I Ee]. apply filter_In in I as [I Pk]. exists k, w. split.
      * exists o. split; [exact No|]. rewrite Epr. split; [eapply Nm; eauto|].
        exists w. apply dget_entry_nodup; [apply string_dec_ok|exact Nd|exact I].
      * split; [|exact Ee]. apply dget_entry_nodup; [apply string_dec_ok|exact Nd|exact I].
    + destruct Hx as [[o' [No' V]] [A Ee]]. rewrite No in No'. injection No' as <-. rewrite Epr in V.
      exists k, w. split; [|exact Ee]. apply filter_In. split; [eapply dget_entry; [apply string_dec_ok|exact A]|].
      apply param_name_public, V.
  - (* scikit-learn *)
    destruct (ho_sk _ _ _ W l o names No Epr) as [Ndn Hsk].
    match goal with |- context [for_each _ ?b _] => set (body := b) end.
    set (val := fun k => match attr_of o k with Some w => w | None => VNone end).
    assert (Hval : forall k, In k names -> attr_of o k = Some (val k) /\ In (k, val k) (o_attrs o) /\ param_name k).
    { intros k Ik. destruct (Hsk k Ik) as [Pk [v Ev]]. unfold val. rewrite Ev. split; [reflexivity|].
      split; [eapply dget_entry; [apply string_dec_ok|exact Ev]|exact Pk]. }
    assert (H : forall rest done ps, names = done ++ rest -> NoDup (dkeys ps) ->
      (forall key v, dget String.eqb ps key = Some v <->
         exists k w, In (k, w) (map (fun k => (k, val k)) done) /\ entry h k w key v) ->
      exists ps', for_each rest body ps = Ok ps' /\ NoDup (dkeys ps') /\
        forall key v, dget String.eqb ps' key = Some v <->
         exists k w, In (k, w) (map (fun k => (k, val k)) (done ++ rest)) /\ entry h k w key v).
    { induction rest as [|k rest IHr]; intros done ps Eo Np Hps.
      - exists ps. rewrite app_nil_r. auto.
      - cbn [for_each].
        assert (Ik : In k names) by (rewrite Eo; apply in_or_app; right; left; reflexivity).
        destruct (Hval k Ik) as [Ev [I Hk]]. set (w := val k) in *.
        assert (Eo' : names = (done ++ [k]) ++ rest) by (rewrite <- app_assoc; exact Eo).
        replace (done ++ k :: rest) with ((done ++ [k]) ++ rest) by (rewrite <- app_assoc; reflexivity).
        
        assert (Hni : ~ In k (map fst (map (fun k => (k, val k)) done))).
        { rewrite map_map. simpl. rewrite map_id. intro X. rewrite Eo in Ndn. apply NoDup_remove_2 in Ndn. apply Ndn.
          apply in_or_app. left. exact X. }
        assert (Hnm : forall k' w', In (k', w') (map (fun k => (k, val k)) done) -> param_name k').
        { intros k' w' X. apply in_map_iff in X as [k0 [X Y]]. injection X as -> <-.
          apply Hval. rewrite Eo. apply in_or_app. left. exact Y. }
        assert (Ef : map (fun k => (k, val k)) (done ++ [k]) = map (fun k => (k, val k)) done ++ [(k, w)])
          by (rewrite map_app; reflexivity).
        assert (Nk : forall ps0 key, key <> k -> dget String.eqb (dset String.eqb ps0 k w) key = dget String.eqb ps0 key)
          by (intros; apply dget_dset_other; [apply string_dec_ok|assumption]).
        assert (V : visible h l k) by (exists o; rewrite Epr; auto).
        destruct (Hentry k w V I) as [[Pn HE]|[l' [nested [Ew [Pn [G [Nn HE]]]]]]].
        + assert (Eb : body k ps = Ok (dset String.eqb ps k w)).
          { unfold body. rewrite Ev. destruct w; try reflexivity. rewrite Pn. reflexivity. }
          rewrite Eb. cbn [bind]. apply IHr; [exact Eo'|apply dkeys_dset_nodup; [apply string_dec_ok|exact Np]|].
          rewrite Ef. apply entries_step with (ps1 := ps); auto.
          * intros key v E. apply HE in E as [-> ->]. apply dget_dset_same, string_dec_ok.
          * intros key v N. rewrite Nk; auto. intros ->. apply N. exists w. apply HE. auto.
          * intros key v G N. rewrite Nk; auto. intros ->. apply N. exists w. apply HE. auto.
          * apply (Hdec k w []); [exact Hk|]. intros key v. rewrite HE. split; [auto|].
            intros [X|[j [_ X]]]; [exact X|discriminate].
        + assert (Eb : body k ps = Ok (dset String.eqb (add_nested k nested ps) k w)).
          { unfold body. rewrite Ev. rewrite Ew in *. destruct (protocol_of classes h (VRef l')); try congruence; rewrite G; reflexivity. }
          rewrite Eb. cbn [bind]. destruct (add_nested_get k nested Nn ps) as [A B].
          apply IHr; [exact Eo'|apply dkeys_dset_nodup; [apply string_dec_ok|apply add_nested_nodup, Np]|].
          rewrite Ef.
          assert (B' : forall key, ~ (exists v', entry h k w key v') ->
             dget String.eqb (dset String.eqb (add_nested k nested ps) k w) key = dget String.eqb ps key).
          { intros key N. assert (key <> k) by (intros ->; apply N; exists w; apply HE; auto).
            rewrite Nk by assumption. destruct (partition_ key) as [k' sub] eqn:Ep. destruct sub as [j|].
            - destruct (string_dec key (k ++ sep ++ j)%string) as [->|Hs].
              + rewrite A. destruct (dget String.eqb nested j) eqn:Eg; [exfalso; apply N; exists v; apply HE; right; eauto|].
                reflexivity.
              + apply B. intros j' ->. rewrite partition_nested in Ep by exact Hk. injection Ep as <- <-. auto.
            - apply B. intros j' ->. rewrite partition_nested in Ep by exact Hk. discriminate. }
          apply entries_step with (ps1 := ps); auto.
          * intros key v E. apply HE in E as [[-> ->]|[j [-> Gj]]]; [apply dget_dset_same, string_dec_ok|].
            rewrite Nk by (apply nested_not_name; exact Hk). rewrite A, Gj. reflexivity.
          * intros key v N X. rewrite B' in X by exact N. exact X.
          * intros key v X N. rewrite B' by exact N. exact X.
          * apply (Hdec k w nested); assumption. }
    destruct (H names [] [] eq_refl) as [ps [E [N R]]].
    { constructor. }
    { intros key v. simpl. split; [discriminate|intros [k [w [[] _]]]]. }
    exists ps. split; [exact E|]. split; [exact N|]. intros key v. rewrite R.
    rewrite (resolves_entry h l o No). simpl. split; intros [k [w Hx]].
    + destruct Hx as [I Ee]. apply in_map_iff in I as [k0 [X Y]]. injection X as -> <-. exists k, (val k).
      split; [|split; [apply Hval, Y|exact Ee]]. exists o. split; [exact No|]. rewrite Epr. exact Y.
    + destruct Hx as [[o' [No' V]] [A Ee]]. rewrite No in No'. injection No' as <-. rewrite Epr in V.
      exists k, w. split; [|exact Ee]. apply in_map_iff. exists k. split; [|exact V].
      destruct (Hval k V) as [Ev _]. congruence.
Qed.
End WithClasses.
