(** Proof that [clone] makes a fresh copy. *)
From Coq Require Import String Ascii.
From Verif Require Import Base BaseFacts Dict DictFacts ModelObjects SpecObjects ObjectFacts ObjectProp.
Open Scope list_scope.

Lemma in_dset {V} (d : list (string * V)) k v k' v' :
  In (k', v') (dset String.eqb d k v) -> (k' = k /\ v' = v) \/ In (k', v') d.
Proof.
  induction d as [|[k0 d0] d IHn]; simpl; intro I.
  - destruct I as [I|[]]. injection I as <- <-. auto.
  - destruct (String.eqb_spec k k0) as [<-|].
    + destruct I as [I|I]; [injection I as <- <-; auto|right; right; exact I].
    + destruct I as [I|I]; [right; left; exact I|]. destruct (IHn I); [auto|right; right; assumption].
Qed.
Lemma dset_keys {V} (d : list (string * V)) k v : In k (map fst d) -> map fst (dset String.eqb d k v) = map fst d.
Proof.
  induction d as [|[k0 d0] d IHn]; simpl; intro I; [destruct I|].
  destruct (String.eqb_spec k k0) as [<-|]; simpl; [reflexivity|].
  rewrite IHn; [reflexivity|]. destruct I; [congruence|assumption].
Qed.

Section WithClasses.
Variable classes : nat -> class.
Notation get_params := (get_params classes).
Notation set_params := (set_params classes).
Notation visible := (visible classes).
Notation resolves := (resolves classes).
Notation has_protocol := (has_protocol classes).
Notation heap_ok := (heap_ok classes).
Notation has_name := (has_name classes).

Section Clone.
Variables (h : heap) (rank : nat -> nat) (l : nat) (o : obj) (d : list (string * value)).
Hypothesis W : heap_ok h rank.
Hypothesis No : nth_error h l = Some o.
Hypothesis Hinit : c_init (classes (o_class o)) = Some d.
Hypothesis Hd : init_ok d.
Hypothesis Hm : params_of_class classes o d.

Definition new (attrs : list (string * value)) : obj := mkobj (o_class o) attrs.

Lemma has_proto_l : has_protocol h l.
Proof. exists o. split; [exact No|]. unfold params_of_class in Hm. intro E. rewrite E in Hm. exact Hm. Qed.

Lemma visible_dec k : visible h l k \/ ~ visible h l k.
Proof.
  unfold SpecObjects.visible. destruct (c_protocol (classes (o_class o))) as [|names|] eqn:E.
  - destruct (attr_of o k) as [v|] eqn:A.
    + destruct (is_public k) eqn:P.
      * left. exists o. split; [exact No|]. rewrite E. split; [|eauto].
        eapply (proj2 (ho_names _ _ _ W l o No)); [eapply dget_entry; [apply string_dec_ok|exact A]|exact P].
      * right. intros [o2 [N2 V]]. rewrite No in N2. injection N2 as <-. rewrite E in V.
        destruct V as [V _]. apply param_name_public in V. congruence.
    + right. intros [o2 [N2 V]]. rewrite No in N2. injection N2 as <-. rewrite E in V.
      destruct V as [_ [v V]]. congruence.
  - destruct (in_dec string_dec k names) as [I|I].
    + left. exists o. rewrite E. auto.
    + right. intros [o2 [N2 V]]. rewrite No in N2. injection N2 as <-. rewrite E in V. auto.
  - right. intros [o2 [N2 V]]. rewrite No in N2. injection N2 as <-. rewrite E in V. auto.
Qed.

Lemma visible_key k : visible h l k -> In k (map fst d).
Proof.
  intros [o2 [N2 V]]. rewrite No in N2. injection N2 as <-. unfold params_of_class in Hm.
  destruct (c_protocol (classes (o_class o))); [|apply Hm, V|contradiction].
  destruct V as [P V]. apply Hm; [apply param_name_public, P|exact V].
Qed.

(** The attributes of the new object during the call. *)
Definition inv (done attrs : list (string * value)) : Prop :=
  map fst attrs = map fst d /\
  (forall k v, In (k, v) done -> visible h l k -> dget String.eqb attrs k = attr h l k) /\
  (forall k, visible h l k -> dget String.eqb attrs k = attr h l k \/ dget String.eqb attrs k = dget String.eqb d k) /\
  (forall k, ~ visible h l k -> dget String.eqb attrs k = dget String.eqb d k).

Lemma inv_start : inv [] d.
Proof. repeat split; auto. intros k v []. Qed.

Lemma inv_set done attrs k v : inv done attrs -> visible h l k -> attr h l k = Some v ->
  inv (done ++ [(k, v)]) (dset String.eqb attrs k v).
Proof.
  intros [Ik [Id [Iv In_]]] V A.
  assert (G : forall k', dget String.eqb (dset String.eqb attrs k v) k' = if String.eqb k' k then Some v else dget String.eqb attrs k')
    by (intro; apply dget_dset, string_dec_ok).
  split; [|split; [|split]].
  - rewrite dset_keys; [exact Ik|]. rewrite Ik. apply visible_key, V.
  - intros k' v' I V'. rewrite G. destruct (String.eqb_spec k' k) as [->|Hne]; [congruence|].
    apply in_app_or in I as [I|[I|[]]]; [eapply Id; eauto|]. injection I as <- <-. congruence.
  - intros k' V'. rewrite G. destruct (String.eqb_spec k' k) as [->|Hne]; [left; congruence|]. apply Iv, V'.
  - intros k' V'. rewrite G. destruct (String.eqb_spec k' k) as [->|Hne]; [contradiction|]. apply In_, V'.
Qed.

Lemma inv_skip done attrs k v : inv done attrs -> ~ visible h l k -> inv (done ++ [(k, v)]) attrs.
Proof.
  intros [Ik [Id [Iv In_]]] V. split; [exact Ik|]. split; [|split; assumption].
  intros k' v' I V'. apply in_app_or in I as [I|[I|[]]]; [eapply Id; eauto|]. injection I as <- <-. contradiction.
Qed.

Lemma inv_heap_ok done attrs : inv done attrs -> heap_ok (h ++ [new attrs]) (rank' h rank l).
Proof.
  intros [Ik [Id [Iv In_]]]. destruct Hd as [Nd [Pn Nr]].
  assert (Nda : NoDup (map fst attrs)) by (rewrite Ik; exact Nd).
  eapply heap_ok_ext with (o := o); [exact W|exact No|reflexivity| | |].
  - split; [exact Nda|]. intros k v I P. cbn [o_attrs] in I.
    assert (K : In k (map fst d)) by (rewrite <- Ik; apply in_map_iff; exists (k, v); auto).
    apply in_map_iff in K as [[k0 v0] [E K]]. simpl in E. subst k0. eapply Pn; eauto.
  - intros k r _ I. unfold attr_of in I. cbn [o_attrs new] in I.
    assert (Hdr : dget String.eqb d k <> Some (VRef r)).
    { intro E. apply (Nr k r). eapply dget_entry; [apply string_dec_ok|exact E]. }
    destruct (visible_dec k) as [V|V].
    + destruct (Iv k V) as [E|E]; [|congruence]. rewrite I in E.
      apply (ho_refs _ _ _ W l k r V). symmetry. exact E.
    + rewrite In_ in I by exact V. contradiction.
  - intros names E k I. unfold params_of_class in Hm. rewrite E in Hm.
    apply (dget_in _ string_dec_ok). cbn [o_attrs new]. unfold dkeys. rewrite Ik. apply Hm, I.
Qed.

Lemma new_nth attrs : nth_error (h ++ [new attrs]) (length h) = Some (new attrs).
Proof. rewrite nth_error_app2, Nat.sub_diag by lia. reflexivity. Qed.

Lemma set_attr_new attrs k v : set_attr (h ++ [new attrs]) (length h) k v = Ok (h ++ [new (dset String.eqb attrs k v)]).
Proof.
  unfold set_attr. rewrite (proj2 (rd_ok _ _ _) (new_nth attrs)). cbn [bind]. unfold wr.
  rewrite app_length. simpl length. destruct (Nat.ltb_spec (length h) (length h + 1)); [|lia].
  rewrite firstn_app, Nat.sub_diag, firstn_all, firstn_O, app_nil_r.
  rewrite skipn_all2 by (rewrite app_length; simpl; lia). reflexivity.
Qed.

Lemma has_name_new done attrs k : inv done attrs -> visible h l k -> has_name (h ++ [new attrs]) (length h) k = true.
Proof.
  intros [Ik _] V. apply has_name_known. exists (new attrs). split; [apply new_nth|]. left.
  apply (dget_in _ string_dec_ok). unfold dkeys. cbn [o_attrs new]. rewrite Ik. apply visible_key, V.
Qed.

Lemma nested_not_visible k j : param_name k -> ~ visible h l (k ++ sep ++ j)%string.
Proof. intros P V. destruct (visible_name classes h rank l _ W V) as [P' _]. eapply nested_not_name; [exact P|exact P'|reflexivity]. Qed.

(** The new object resolves names as the old one does, once every parameter is copied. *)
Lemma copy_visible attrs : (forall k, visible h l k -> dget String.eqb attrs k = attr h l k) -> map fst attrs = map fst d ->
  (forall k, ~ visible h l k -> dget String.eqb attrs k = dget String.eqb d k) ->
  forall k, visible (h ++ [new attrs]) (length h) k <-> visible h l k.
Proof.
  intros C Ik Cn k. split.
  - intros [o2 [N2 V]]. rewrite new_nth in N2. injection N2 as <-. cbn [o_class new] in V.
    exists o. split; [exact No|]. unfold params_of_class in Hm.
    destruct (c_protocol (classes (o_class o))); [|exact V|exact V]. destruct V as [P [v V]]. split; [exact P|].
    apply Hm; [apply param_name_public, P|]. rewrite <- Ik. apply (dget_in _ string_dec_ok). eauto.
  - intros V. pose proof V as V0. destruct V as [o2 [N2 V]]. rewrite No in N2. injection N2 as <-.
    exists (new attrs). split; [apply new_nth|]. cbn [o_class new].
    destruct (c_protocol (classes (o_class o))); [|exact V|exact V]. destruct V as [P [v V]]. split; [exact P|].
    exists v. unfold attr_of. cbn [o_attrs new]. rewrite (C k V0). unfold attr. rewrite No. exact V.
Qed.

Lemma copy_resolves attrs : (forall k, visible h l k -> dget String.eqb attrs k = attr h l k) -> map fst attrs = map fst d ->
  (forall k, ~ visible h l k -> dget String.eqb attrs k = dget String.eqb d k) ->
  forall key v, resolves (h ++ [new attrs]) (length h) key v <-> resolves h l key v.
Proof.
  intros C Ik Cn key v. pose proof (copy_visible attrs C Ik Cn) as Vn.
  assert (An : forall k, visible h l k -> attr (h ++ [new attrs]) (length h) k = attr h l k).
  { intros k V. unfold attr at 1. rewrite new_nth. apply C, V. }
  split; intro R.
  - destruct (resolves_cases _ _ _ _ _ R) as [[V A]|[k [l' [j [-> [V [A [P Rj]]]]]]]].
    + apply Vn in V. apply res_here; [exact V|]. rewrite <- An by exact V. exact A.
    + apply Vn in V. rewrite An in A by exact V. destruct (ho_refs _ _ _ W _ _ _ V A) as [L _].
      eapply res_nested; [exact V|exact A|apply (protocol_ext classes h (new attrs) l' L), P|
        eapply resolves_ext_inv; [exact W|exact L|exact Rj]].
  - destruct (resolves_cases _ _ _ _ _ R) as [[V A]|[k [l' [j [-> [V [A [P Rj]]]]]]]].
    + apply res_here; [apply Vn, V|]. rewrite An by exact V. exact A.
    + destruct (ho_refs _ _ _ W _ _ _ V A) as [L _].
      eapply res_nested; [apply Vn, V|rewrite An by exact V; exact A|apply (protocol_ext classes h (new attrs) l' L), P|
        eapply resolves_ext; [exact W|exact Rj]].
Qed.

(** Setting the parameters of the old object on the new one. *)
Lemma set_new lim ps : rank l + 1 < lim ->
  (forall key v, In (key, v) ps -> resolves h l key v) ->
  (forall k v, visible h l k -> attr h l k = Some v -> In (k, v) ps) ->
  exists attrs, set_params lim (h ++ [new d]) (length h) ps = Ok (h ++ [new attrs]) /\ inv ps attrs.
Proof.
  intros Hl Hps Hall. destruct lim as [|lim]; [lia|]. cbn [ModelObjects.set_params].
  rewrite (proj2 (rd_ok _ _ _) (new_nth d)). cbn [bind]. change (o_class (new d)) with (o_class o).
  pose proof has_proto_l as Hp.
  assert (Hsame : forall attrs l' k ds, inv ps attrs -> visible h l k -> attr h l k = Some (VRef l') -> has_protocol h l' ->
     (forall j v, In (j, v) ds -> resolves h l' j v) ->
     set_params lim (h ++ [new attrs]) l' ds = Ok (h ++ [new attrs])).
  { intros attrs l' k ds I V A P R. destruct (ho_refs _ _ _ W _ _ _ V A) as [L Hr].
    apply (set_params_same classes _ _ (inv_heap_ok ps attrs I)).
    - rewrite rank'_old by exact L. lia.
    - apply (protocol_ext classes h (new attrs) l' L), P.
    - intros j v Ij. eapply resolves_ext; [exact W|apply R, Ij]. }
  destruct (c_protocol (classes (o_class o))) as [|names|] eqn:Epr;
    [| |destruct Hp as [o2 [N2 Pr]]; rewrite No in N2; injection N2 as <-; congruence].
  - assert (H : forall rest done attrs nested, inv done attrs -> (forall key v, In (key, v) rest -> resolves h l key v) ->
      (forall k j v, In (k, j, v) nested -> exists l', visible h l k /\ attr h l k = Some (VRef l') /\
          has_protocol h l' /\ resolves h l' j v) ->
      exists attrs' nested', for_each rest (outer_step classes (length h)) (h ++ [new attrs], nested) =
           Ok (h ++ [new attrs'], nested') /\ inv (done ++ rest) attrs' /\
        forall k j v, In (k, j, v) nested' -> exists l', visible h l k /\ attr h l k = Some (VRef l') /\
          has_protocol h l' /\ resolves h l' j v).
    { induction rest as [|[key v] rest IHp]; intros done attrs nested I Hr Hn.
      - exists attrs, nested. rewrite app_nil_r. auto.
      - assert (R : resolves h l key v) by (apply Hr; left; reflexivity).
        assert (Hr' : forall key v, In (key, v) rest -> resolves h l key v) by (intros; apply Hr; right; assumption).
        cbn [for_each]. unfold outer_step at 1. rewrite (is_public_resolves _ _ _ _ _ _ W R).
        replace (done ++ (key, v) :: rest) with ((done ++ [(key, v)]) ++ rest) by (rewrite <- app_assoc; reflexivity).
        destruct (resolves_cases _ _ _ _ _ R) as [[V A]|[k [l' [j [-> [V [A [P Rj]]]]]]]].
        + destruct (visible_name _ _ _ _ _ W V) as [Pk _]. unfold split_param. rewrite partition_name by exact Pk.
          rewrite (has_name_new _ _ _ I V), set_attr_new. cbn [bind]. apply IHp; [apply inv_set; assumption|exact Hr'|exact Hn].
        + destruct (visible_name _ _ _ _ _ W V) as [Pk _]. unfold split_param. rewrite partition_nested by exact Pk.
          destruct (resolves_shape _ _ _ _ _ _ W Rj) as [Hj _]. destruct j as [|c j]; [congruence|]. cbn [bind].
          apply IHp; [apply inv_skip; [exact I|apply nested_not_visible, Pk]|exact Hr'|].
          intros k' j' v' X. apply in_app_or in X as [X|[X|[]]]; [apply Hn, X|]. injection X as <- <- <-. exists l'. auto. }
    destruct (H ps [] d [] inv_start Hps) as [attrs [nested [E [I Hn]]]]; [intros k j v []|].
    exists attrs. split; [|exact I]. etransitivity; [refine (f_equal (fun r => bind r _) E)|]. cbn [bind]. apply for_each_const.
    intros [[k j] v] X. destruct (Hn k j v X) as [l' [V [A [P R]]]].
    simpl app in I. rewrite (has_name_new _ _ _ I V), (proj2 (rd_ok _ _ _) (new_nth attrs)). cbn [bind].
    destruct I as [Ik [Id Ir]]. unfold attr_of. cbn [o_attrs new].
    rewrite (Id k (VRef l') (Hall _ _ V A) V), A. cbn [as_ref bind].
    eapply Hsame; [repeat split; assumption || apply Ir|exact V|exact A|exact P|]. intros j' v' [Y|[]]. injection Y as <- <-. exact R.
  - destruct ps as [|p0 ps0]; [exists d; split; [reflexivity|exact inv_start]|].
    set (ps := p0 :: ps0) in *. clearbody ps.
    assert (Hp0 : has_protocol (h ++ [new d]) (length h)).
    { exists (new d). split; [apply new_nth|]. cbn [o_class new]. congruence. }
    destruct (get_params_ok classes _ _ (inv_heap_ok [] d inv_start) lim (length h)) as [valid0 [Eg [_ Rep]]];
      [rewrite rank'_new; lia|exact Hp0|]. rewrite Eg. cbn [bind].
    assert (Hvalid0 : forall k, visible h l k -> dget String.eqb valid0 k <> None).
    { intros k V. pose proof (visible_key k V) as K. apply (dget_in _ string_dec_ok) in K as [w K].
      assert (E : dget String.eqb valid0 k = Some w); [|congruence]. apply Rep. apply res_here.
      - exists (new d). split; [apply new_nth|]. cbn [o_class new]. rewrite Epr.
        destruct V as [o2 [N2 V]]. rewrite No in N2. injection N2 as <-. rewrite Epr in V. exact V.
      - unfold attr. rewrite new_nth. exact K. }
    set (nok := fun nested : list (string * list (string * value)) =>
      forall k ds, In (k, ds) nested -> visible h l k /\ exists l', attr h l k = Some (VRef l') /\ has_protocol h l' /\
          forall j v, In (j, v) ds -> resolves h l' j v).
    set (vok := fun (done valid : list (string * value)) => (forall k, visible h l k -> dget String.eqb valid k <> None) /\
      forall k v, In (k, v) done -> visible h l k -> dget String.eqb valid k = attr h l k).
    assert (H : forall rest done attrs valid nested, inv done attrs -> vok done valid -> nok nested ->
      (forall key v, In (key, v) rest -> resolves h l key v) ->
      exists attrs' valid' nested', for_each rest (sk_step (length h)) (h ++ [new attrs], valid, nested) =
           Ok (h ++ [new attrs'], valid', nested') /\ inv (done ++ rest) attrs' /\ vok (done ++ rest) valid' /\ nok nested').
    { induction rest as [|[key v] rest IHp]; intros done attrs valid nested I Vk Hn Hr.
      - exists attrs, valid, nested. rewrite app_nil_r. auto.
      - assert (R : resolves h l key v) by (apply Hr; left; reflexivity).
        assert (Hr' : forall key v, In (key, v) rest -> resolves h l key v) by (intros; apply Hr; right; assumption).
        cbn [for_each]. unfold sk_step at 1.
        replace (done ++ (key, v) :: rest) with ((done ++ [(key, v)]) ++ rest) by (rewrite <- app_assoc; reflexivity).
        destruct (resolves_cases _ _ _ _ _ R) as [[V A]|[k [l' [j [-> [V [A [P Rj]]]]]]]].
        + destruct (visible_name _ _ _ _ _ W V) as [Pk _]. rewrite partition_name by exact Pk.
          unfold dmem. destruct (dget String.eqb valid key) eqn:Ev; [|exfalso; eapply (proj1 Vk); eauto].
          rewrite set_attr_new. cbn [bind]. apply IHp; [apply inv_set; assumption| |exact Hn|exact Hr'].
          destruct Vk as [V1 V2]. split.
          * intros k' V'. rewrite (dget_dset _ string_dec_ok). destruct (String.eqb k' key); [discriminate|apply V1, V'].
          * intros k' v' X V'. rewrite (dget_dset _ string_dec_ok). destruct (String.eqb_spec k' key) as [->|Hne]; [congruence|].
            apply in_app_or in X as [X|[X|[]]]; [eapply V2; eauto|]. injection X as <- <-. congruence.
        + destruct (visible_name _ _ _ _ _ W V) as [Pk _]. rewrite partition_nested by exact Pk.
          unfold dmem. destruct (dget String.eqb valid k) eqn:Ev; [|exfalso; eapply (proj1 Vk); eauto].
          cbn [bind]. apply IHp; [apply inv_skip; [exact I|apply nested_not_visible, Pk]| | |exact Hr'].
          * destruct Vk as [V1 V2]. split; [exact V1|]. intros k' v' X V'.
            apply in_app_or in X as [X|[X|[]]]; [eapply V2; eauto|]. injection X as <- <-.
            exfalso. eapply nested_not_visible; [exact Pk|exact V'].
          * intros k' d' X. apply in_dset in X as [[-> ->]|X]; [|apply Hn, X].
            split; [exact V|]. exists l'. split; [exact A|]. split; [exact P|].
            intros j' v' Ij. apply in_dset in Ij as [[-> ->]|Ij]; [exact Rj|].
            destruct (dget String.eqb nested k) as [ds|] eqn:Ed; [|destruct Ij].
            destruct (Hn k ds) as [_ [l2 [A2 [_ R2]]]]; [eapply dget_entry; [apply string_dec_ok|exact Ed]|].
            rewrite A in A2. injection A2 as <-. apply R2, Ij. }
    destruct (H ps [] d valid0 [] inv_start) as [attrs [valid [nested [E [I [Vk Hn]]]]]].
    { split; [exact Hvalid0|intros k v []]. } { intros k ds []. } { exact Hps. }
    exists attrs. split; [|exact I]. etransitivity; [refine (f_equal (fun r => bind r _) E)|]. cbn [bind]. apply for_each_const.
    intros [k ds] X. destruct (Hn k ds X) as [V [l' [A [P R]]]]. cbn [fst snd].
    unfold dget_res. rewrite (proj2 Vk k (VRef l') (Hall _ _ V A) V), A. cbn [bind as_ref].
    eapply Hsame; [exact I|exact V|exact A|exact P|exact R].
Qed.

Theorem clone_spec lim : rank l + 1 < lim ->
  exists o', clone classes lim h l = Ok (length h, h ++ [o']) /\ fresh_copy classes h l o d o' /\
    heap_ok (h ++ [o']) (rank' h rank l) /\
    (forall key v, resolves (h ++ [o']) (length h) key v <-> resolves h l key v) /\
    exists ps ps', get_params lim h true l = Ok ps /\ get_params lim (h ++ [o']) true (length h) = Ok ps' /\
      forall key, dget String.eqb ps' key = dget String.eqb ps key.
Proof.
  intro Hl. destruct (get_params_ok classes h rank W lim l) as [ps [Eg [Nd Rep]]]; [lia|apply has_proto_l|].
  destruct (set_new lim ps Hl) as [attrs [E I]].
  { intros key v X. apply Rep. apply (dget_entry_nodup _ string_dec_ok); [exact Nd|exact X]. }
  { intros k v V A. eapply dget_entry; [apply string_dec_ok|]. apply Rep, res_here; assumption. }
  exists (new attrs). pose proof (inv_heap_ok ps attrs I) as W'. destruct I as [Ik [Id [Iv In_]]].
  assert (C : forall k, visible h l k -> dget String.eqb attrs k = attr h l k).
  { intros k V. destruct (visible_name _ _ _ _ _ W V) as [_ [v A]]. apply (Id k v); [|exact V].
    eapply dget_entry; [apply string_dec_ok|]. apply Rep, res_here; assumption. }
  pose proof (copy_resolves attrs C Ik In_) as CR.
  split; [|split; [|split; [|split]]].
  - unfold clone. rewrite Eg, (proj2 (rd_ok h l o) No). cbn [bind]. rewrite Hinit. unfold new in E. rewrite E. reflexivity.
  - split; [reflexivity|]. split; [exact Ik|]. split; [|exact In_].
    intros k V. unfold attr_of at 1. cbn [o_attrs new]. rewrite (C k V). unfold attr. rewrite No. reflexivity.
  - exact W'.
  - exact CR.
  - destruct (get_params_ok classes _ _ W' lim (length h)) as [ps' [Eg' [Nd' Rep']]].
    + rewrite rank'_new. lia.
    + exists (new attrs). split; [apply new_nth|]. cbn [o_class new]. destruct has_proto_l as [o2 [N2 Pr]].
      rewrite No in N2. injection N2 as <-. exact Pr.
    + exists ps, ps'. split; [exact Eg|]. split; [exact Eg'|]. intro key.
      destruct (dget String.eqb ps key) as [v|] eqn:E1.
      * apply Rep', CR, Rep, E1.
      * destruct (dget String.eqb ps' key) as [v|] eqn:E2; [|reflexivity].
        apply Rep', CR, Rep in E2. congruence.
Qed.
End Clone.
End WithClasses.
