(** Rules for the atomic steps. *)
From Coq Require Import String.
From Verif Require Import Base BaseFacts Dict DictFacts ModelCore ModelObjects SpecObjects ObjectFacts ObjectProp CloneProp ModelValidate
  ModelLearn SpecLearn LearnLogic.
Open Scope nat_scope.
Open Scope list_scope.

Definition also (own : nat -> Prop) (n : nat) : nat -> Prop := fun l => own l \/ l = n.

Section Steps.
Context {F O : Type}.
Variable classes : nat -> class.
Variable beh : nat -> behaviour F O.
Notation heap_ok := (heap_ok classes).
Notation visible := (visible classes).
Notation resolves := (resolves classes).
Notation made := (made classes).
Notation has_protocol := (has_protocol classes).
Notation inv := (inv classes).
Notation rely := (rely classes).
Notation guar := (guar classes).
Notation adv := (adv classes).
Notation ok := (ok classes).

Lemma private_name k k' : is_public k = false -> param_name k' -> k' <> k.
Proof. intros P N ->. apply param_name_public in N. congruence. Qed.

(** *** Writing an attribute that is not a parameter *)
Section Put.
Variables (h h' : heap) (rank : nat -> nat) (l : nat) (k : string) (v : value) (o : obj).
Hypothesis I : inv h rank.
Hypothesis N : nth_error h l = Some o.
Hypothesis Pk : is_public k = false.
Let o' : obj := mkobj (o_class o) (dset String.eqb (o_attrs o) k v).
Hypothesis Len : length h' = length h.
Hypothesis Nth : forall m, nth_error h' m = if m =? l then Some o' else nth_error h m.

Lemma put_attr_of k' : k' <> k -> attr_of o' k' = attr_of o k'.
Proof. intro H. unfold attr_of, o'. cbn [o_attrs]. apply (dget_dset_other _ string_dec_ok), H. Qed.
Lemma put_attr l' k' : (l', k') <> (l, k) -> attr h' l' k' = attr h l' k'.
Proof.
  intro H. unfold attr. rewrite Nth. destruct (Nat.eqb_spec l' l) as [->|Hl]; [|reflexivity]. rewrite N.
  apply put_attr_of. intros ->. apply H. reflexivity.
Qed.
Lemma put_attr_new : attr h' l k = Some v.
Proof. unfold attr. rewrite Nth, Nat.eqb_refl. unfold attr_of, o'. cbn [o_attrs]. apply (dget_dset_same _ string_dec_ok). Qed.
Lemma put_kept : kept h h'.
Proof.
  intros m x Nx. destruct (Nat.eq_dec m l) as [->|Hm].
  - rewrite N in Nx. injection Nx as <-. exists o'. rewrite Nth, Nat.eqb_refl. split; [reflexivity|]. split; [reflexivity|].
    intros k' Hk'. apply put_attr_of, private_name; assumption.
  - exists x. rewrite Nth. destruct (Nat.eqb_spec m l); [contradiction|]. auto.
Qed.
Lemma put_visible m k' : visible h' m k' -> visible h m k' /\ (l, k) <> (m, k').
Proof.
  destruct I as [W _]. intros [x [Nx V]]. rewrite Nth in Nx. destruct (Nat.eqb_spec m l) as [->|Hm].
  - injection Nx as <-. unfold o' in V. cbn [o_class] in V.
    assert (Hk' : k' <> k).
    { apply private_name; [exact Pk|]. destruct (c_protocol (classes (o_class o))) eqn:E; [apply V| |contradiction].
      apply (ho_sk _ _ _ W _ _ _ N E), V. }
    split; [|congruence]. exists o. split; [exact N|]. destruct (c_protocol (classes (o_class o))) eqn:E; auto.
    destruct V as [Q [w A]]. split; [exact Q|]. exists w. rewrite <- A. symmetry. apply put_attr_of, Hk'.
  - split; [|congruence]. exists x. auto.
Qed.
Lemma put_inv : inv h' rank.
Proof.
  destruct I as [W M]. split; [constructor|].
  - intros m x Nx. rewrite Nth in Nx. destruct (Nat.eqb_spec m l) as [->|Hm]; [|apply (ho_names _ _ _ W _ _ Nx)].
    injection Nx as <-. destruct (ho_names _ _ _ W _ _ N) as [Nd Hn]. unfold o'. cbn [o_attrs]. split.
    + apply (dkeys_dset_nodup _ string_dec_ok), Nd.
    + intros k' v' E P. pose proof (dkeys_dset_nodup _ string_dec_ok (o_attrs o) k v Nd) as Nd'.
      apply (dget_entry_nodup _ string_dec_ok _ _ _ Nd') in E. rewrite (dget_dset _ string_dec_ok) in E.
      destruct (String.eqb_spec k' k) as [->|Hk']; [congruence|]. apply (Hn k' v'); [|exact P].
      eapply dget_entry; [apply string_dec_ok|exact E].
  - intros m k' r V A. rewrite Len. apply put_visible in V as [V Hk']. rewrite put_attr in A by congruence. apply (ho_refs _ _ _ W _ _ _ V A).
  - intros m x names Nx E. rewrite Nth in Nx. destruct (Nat.eqb_spec m l) as [->|Hm]; [|apply (ho_sk _ _ _ W _ _ _ Nx E)].
    injection Nx as <-. unfold o' in E. cbn [o_class] in E. destruct (ho_sk _ _ _ W _ _ _ N E) as [Nd Hn]. split; [exact Nd|].
    intros k' Ik. destruct (Hn k' Ik) as [Pn [w A]]. split; [exact Pn|]. exists w. rewrite put_attr_of; [exact A|].
    apply private_name; assumption.
  - intros m x d Nx P E. rewrite Nth in Nx. destruct (Nat.eqb_spec m l) as [->|Hm]; [|apply (M _ _ _ Nx P E)].
    injection Nx as <-. unfold o' in P, E |- *. cbn [o_class] in P, E. destruct (M _ _ _ N P E) as [Di Pc]. split; [exact Di|].
    unfold params_of_class in *. cbn [o_class]. destruct (c_protocol (classes (o_class o))); auto.
    intros k' Pk'. rewrite <- (Pc k' Pk'). fold o'. rewrite put_attr_of; [reflexivity|congruence].
Qed.
End Put.

(** *** A new object *)
Record fits_heap (h : heap) (rank : nat -> nat) (o : obj) (n : nat) : Prop := mk_fits_heap {
  fh_mixin : c_protocol (classes (o_class o)) = Mixin;
  fh_names : NoDup (map fst (o_attrs o));
  fh_public : forall k v, In (k, v) (o_attrs o) -> is_public k = true -> param_name k;
  fh_refs : forall k r, attr_of o k = Some (VRef r) -> r < length h /\ rank r < n;
  fh_made : forall d, c_init (classes (o_class o)) = Some d -> init_ok d /\ params_of_class classes o d }.

Definition rank_new (h : heap) (rank : nat -> nat) (n : nat) : nat -> nat := fun x => if x =? length h then n else rank x.
Lemma rank_new_old h rank n l : l < length h -> rank_new h rank n l = rank l.
Proof. intro L. unfold rank_new. destruct (Nat.eqb_spec l (length h)); [lia|reflexivity]. Qed.
Lemma rank_new_new h rank n : rank_new h rank n (length h) = n.
Proof. unfold rank_new. rewrite Nat.eqb_refl. reflexivity. Qed.

Lemma new_kept h o : kept h (h ++ [o]).
Proof. intros l x N. exists x. split; [|auto]. rewrite nth_error_app1; [exact N|]. eapply nth_error_lt, N. Qed.

Lemma new_inv h rank o n : inv h rank -> fits_heap h rank o n -> inv (h ++ [o]) (rank_new h rank n).
Proof.
  intros [W M] [Fm Fn Fp Fr Fd]. split; [constructor|].
  - intros m x N. destruct (nth_cases h o o eq_refl m x N) as [[L N']|[-> ->]]; [apply (ho_names _ _ _ W _ _ N')|split; assumption].
  - intros m k r V A. rewrite app_length. simpl. pose proof A as A'. unfold attr in A'.
    destruct (nth_error (h ++ [o]) m) as [x|] eqn:N; [|discriminate]. destruct (nth_cases h o o eq_refl m x N) as [[L N']|[-> ->]].
    + apply (visible_ext classes h o m k L) in V. rewrite attr_ext in A by exact L.
      destruct (ho_refs _ _ _ W _ _ _ V A). rewrite !rank_new_old by assumption. lia.
    + destruct (Fr k r A'). rewrite rank_new_new, rank_new_old by assumption. lia.
  - intros m x names N E. destruct (nth_cases h o o eq_refl m x N) as [[L N']|[-> ->]]; [apply (ho_sk _ _ _ W _ _ _ N' E)|congruence].
  - intros m x d N P E. destruct (nth_cases h o o eq_refl m x N) as [[L N']|[-> ->]]; [apply (M _ _ _ N' P E)|apply Fd, E].
Qed.

Lemma fits_heap_later h rank h1 rank1 o n : kept h h1 -> same_rank h rank rank1 -> fits_heap h rank o n -> fits_heap h1 rank1 o n.
Proof.
  intros K R [Fm Fn Fp Fr Fd]. pose proof (kept_length _ _ K). constructor; auto.
  intros k r A. destruct (Fr k r A) as [L Hr]. rewrite R by exact L. split; [lia|exact Hr].
Qed.

(** *** The rules *)
Lemma ok_get l k (own : nat -> Prop) h rank (Q : res value -> (nat -> Prop) -> heap -> (nat -> nat) -> Prop) : inv h rank -> l < length h -> own l \/ param_name k ->
  (forall v h1 rank1, attr h l k = Some v -> rely own h rank h1 rank1 -> Q (Ok v) own h1 rank1) ->
  (forall h1 rank1, attr h l k = None -> rely own h rank h1 rank1 -> Q (Err AttributeError) own h1 rank1) ->
  ok (get l k) own h rank Q.
Proof.
  intros I L Ow Hs Hn h1 rank1 R. exists own, rank1. destruct R as [K [I1 [Rk S]]].
  split; [apply guar_refl, I1|]. cbn [LearnLogic.ok].
  assert (E : attr h1 l k = attr h l k).
  { destruct Ow as [Ow|P]; [unfold attr; rewrite S by assumption; reflexivity|apply kept_attr; assumption]. }
  destruct (kept_nth _ _ _ K L) as [o [o1 [N [N1 _]]]]. unfold attr in E. rewrite N, N1 in E.
  rewrite (proj2 (rd_ok h1 l o1) N1). cbn [bind].
  assert (R : rely own h rank h1 rank1) by (split; [exact K|]; split; [exact I1|]; split; assumption).
  unfold attr in Hs, Hn. rewrite N in Hs, Hn. destruct (attr_of o1 k) as [v|] eqn:A; [apply Hs|apply Hn]; auto.
Qed.

Lemma ok_look {A : Type} (f : heap -> res A) own h rank (Q : res A -> (nat -> Prop) -> heap -> (nat -> nat) -> Prop) :
  (forall h1 rank1, rely own h rank h1 rank1 -> Q (f h1) own h1 rank1) -> ok (look f) own h rank Q.
Proof.
  intros H h1 rank1 R. exists own, rank1. split; [apply guar_refl, R|]. apply H, R.
Qed.

Lemma ok_put l k v (own : nat -> Prop) h rank (Q : res unit -> (nat -> Prop) -> heap -> (nat -> nat) -> Prop) : inv h rank -> l < length h -> own l -> is_public k = false ->
  (forall h2 rank2, adv own h rank own h2 rank2 -> attr h2 l k = Some v ->
     (forall l' k', own l' -> l' < length h -> (l', k') <> (l, k) -> attr h2 l' k' = attr h l' k') -> Q (Ok tt) own h2 rank2) ->
  ok (put l k v) own h rank Q.
Proof.
  intros I L Ow P H h1 rank1 R. exists own, rank1. pose proof R as [K [I1 [Rk S]]].
  destruct (kept_nth _ _ _ K L) as [o [o1 [N [N1 _]]]].
  destruct (set_attr_ok h1 l k v o1 N1) as [h2 [E [Len Nth]]]. rewrite E.
  assert (G : guar own own h1 rank1 h2 rank1).
  { split; [eapply put_kept; eassumption|]. split; [eapply put_inv; eassumption|]. split; [intros x _; reflexivity|].
    split; [|auto]. intros l' L' No. rewrite Nth. destruct (Nat.eqb_spec l' l) as [->|]; [contradiction|reflexivity]. }
  split; [exact G|]. cbn [LearnLogic.ok bind]. apply H.
  - eapply adv_trans; [apply rely_adv, R|apply guar_adv, G].
  - eapply put_attr_new; eassumption.
  - intros l' k' Ow' L' Hne. transitivity (attr h1 l' k'); [eapply put_attr; eassumption|].
    unfold attr. rewrite S by assumption. reflexivity.
Qed.

Lemma ok_new o n (own : nat -> Prop) h rank (Q : res nat -> (nat -> Prop) -> heap -> (nat -> nat) -> Prop) : inv h rank -> fits_heap h rank o n ->
  (forall h1 rank1, rely own h rank h1 rank1 -> inv (h1 ++ [o]) (rank_new h1 rank1 n) ->
     adv own h rank (also own (length h1)) (h1 ++ [o]) (rank_new h1 rank1 n) ->
     (forall l', own l' -> l' < length h -> nth_error (h1 ++ [o]) l' = nth_error h l') ->
     Q (Ok (length h1)) (also own (length h1)) (h1 ++ [o]) (rank_new h1 rank1 n)) ->
  ok (new o) own h rank Q.
Proof.
  intros I Fh H h1 rank1 R. exists (also own (length h1)), (rank_new h1 rank1 n). pose proof R as [K [I1 [Rk S]]].
  pose proof (kept_length _ _ K) as Lh.
  assert (I2 : inv (h1 ++ [o]) (rank_new h1 rank1 n)) by (apply new_inv; [exact I1|]; eapply fits_heap_later; eassumption).
  assert (G : guar own (also own (length h1)) h1 rank1 (h1 ++ [o]) (rank_new h1 rank1 n)).
  { split; [apply new_kept|]. split; [exact I2|]. split; [intros l L; apply rank_new_old, L|].
    split; [intros l L _; apply nth_ext, L|]. split; [unfold also; auto|].
    intros l [Z|Z]; [auto|]. right. rewrite app_length. simpl. lia. }
  split; [exact G|]. cbn [LearnLogic.ok]. apply H; [exact R|exact I2| |].
  - eapply adv_trans; [apply rely_adv, R|apply guar_adv, G].
  - intros l' Ow L. rewrite nth_ext by lia. apply S; assumption.
Qed.

(** [c] is an unfitted copy of [l]. *)
Definition copy (h : heap) (l : nat) (h2 : heap) (c : nat) : Prop :=
  (exists o o', nth_error h l = Some o /\ nth_error h2 c = Some o' /\ o_class o' = o_class o /\
     (c_protocol (classes (o_class o)) = Mixin -> forall k, param_name k -> attr_of o' k = attr_of o k)) /\
  (forall key v, resolves h2 c key v <-> resolves h l key v).

Lemma clone_cases h rank l lim : inv h rank -> l < length h -> rank l + 1 < lim ->
  (cloneable classes h l /\ exists o', clone classes lim h l = Ok (length h, h ++ [o']) /\
     inv (h ++ [o']) (rank_new h rank (rank l)) /\ copy h l (h ++ [o']) (length h)) \/
  (~ cloneable classes h l /\ exists e, clone classes lim h l = Err e).
Proof.
  intros [W M] L Hl. destruct (nth_error h l) as [o|] eqn:N; [|apply nth_error_None in N; lia].
  destruct (c_protocol (classes (o_class o))) eqn:P.
  3: { right. split; [intros [o2 [d [N2 [P2 _]]]]; congruence|]. unfold clone. destruct lim as [|lim]; [lia|]. simpl.
       rewrite (proj2 (rd_ok h l o) N). simpl. rewrite P. simpl. eauto. }
  all: assert (Pn : c_protocol (classes (o_class o)) <> NoProtocol) by congruence.
  all: destruct (c_init (classes (o_class o))) as [d|] eqn:E.
  2, 4: right; split; [intros [o2 [d [N2 [_ E2]]]]; congruence|];
    destruct (get_params_ok classes h rank W lim l ltac:(lia)) as [ps [G _]]; [exists o; auto|];
    unfold clone; rewrite G; simpl; rewrite (proj2 (rd_ok h l o) N); simpl; rewrite E; eauto.
  all: left; split; [exists o, d; auto|].
  all: destruct (M _ _ _ N Pn E) as [Di Pc].
  all: destruct (clone_spec classes h rank l o d W N E Di Pc lim Hl) as [o' [Ec [[Fc [Fk [Fv Fn]]] [W' [Re _]]]]].
  all: exists o'; split; [exact Ec|]; split.
  1, 3: split; [exact W'|]; intros m x d' Nx Px Ex;
      (destruct (nth_cases h o' o' eq_refl m x Nx) as [[Lm Nm]|[-> ->]]; [apply (M _ _ _ Nm Px Ex)|]);
      rewrite Fc in Ex; rewrite E in Ex; injection Ex as <-; split; [exact Di|]; unfold params_of_class; rewrite Fc, P;
      first [intros k Pk; rewrite <- Fk; unfold attr_of; exact (dget_in _ string_dec_ok _ _)
      |intros k Ik; unfold params_of_class in Pc; rewrite P in Pc; apply Pc, Ik].
  all: split; [|exact Re]; exists o, o'; (split; [exact N|]); (split; [rewrite nth_error_app2, Nat.sub_diag by lia; reflexivity|]);
    (split; [exact Fc|]); intros Pm k Pk; try congruence.
  destruct (attr_of o k) as [v|] eqn:A.
  - rewrite <- A. apply Fv. exists o. split; [exact N|]. rewrite P. eauto.
  - rewrite Fn.
    + apply (dget_none _ string_dec_ok). unfold params_of_class in Pc. rewrite P in Pc.
      intro Ik. apply (Pc k (param_name_public _ Pk)) in Ik as [v A']. congruence.
    + intros [o2 [N2 V]]. rewrite N in N2. injection N2 as <-. rewrite P in V. destruct V as [_ [v A']]. congruence.
Qed.

Lemma copy_later h rank h1 rank1 l h2 c : inv h rank -> inv h1 rank1 -> kept h h1 -> l < length h -> copy h1 l h2 c -> copy h l h2 c.
Proof.
  intros [W _] [W1 _] K L [[o1 [o2 [N1 [N2 [C A]]]]] R]. split.
  - destruct (kept_nth _ _ _ K L) as [o [o1' [N [N1' [C1 A1]]]]]. rewrite N1 in N1'. injection N1' as <-.
    exists o, o2. split; [exact N|]. split; [exact N2|]. split; [congruence|]. intros P k Pk.
    rewrite A by (congruence || assumption). apply A1, Pk.
  - intros key v. rewrite R. eapply kept_resolves; eassumption.
Qed.

Lemma ok_clone lim l (own : nat -> Prop) h rank (Q : res nat -> (nat -> Prop) -> heap -> (nat -> nat) -> Prop) : inv h rank -> l < length h -> rank l + 1 < lim ->
  (forall c h2 rank2, cloneable classes h l -> copy h l h2 c -> c < length h2 -> length h <= c -> rank2 c = rank l ->
     inv h2 rank2 -> adv own h rank (also own c) h2 rank2 ->
     (forall l', own l' -> l' < length h -> nth_error h2 l' = nth_error h l') -> Q (Ok c) (also own c) h2 rank2) ->
  (forall e h1 rank1, ~ cloneable classes h l -> rely own h rank h1 rank1 -> Q (Err e) own h1 rank1) ->
  ok (pclone classes lim (VRef l)) own h rank Q.
Proof.
  intros I L Hl Hs Hf. unfold pclone. cbn [as_ref lift pbind]. intros h1 rank1 R. pose proof R as [K [I1 [Rk S]]].
  pose proof (kept_length _ _ K) as Lh.
  destruct (clone_cases h1 rank1 l lim I1) as [[Cl [o' [E [I2 Cp]]]]|[Cl [e E]]]; [lia|rewrite Rk by exact L; exact Hl| |]; rewrite E.
  - cbn [fst snd bind]. exists (also own (length h1)), (rank_new h1 rank1 (rank1 l)).
    assert (G : guar own (also own (length h1)) h1 rank1 (h1 ++ [o']) (rank_new h1 rank1 (rank1 l))).
    { split; [apply new_kept|]. split; [exact I2|]. split; [intros x Lx; apply rank_new_old, Lx|].
      split; [intros x Lx _; apply nth_ext, Lx|]. split; [unfold also; auto|].
      intros x [Z|Z]; [auto|]. right. rewrite app_length. simpl. lia. }
    split; [exact G|]. cbn [LearnLogic.ok]. apply Hs.
    + destruct Cl as [o [d [N [P D]]]]. destruct (kept_nth _ _ _ K L) as [o0 [o1 [N0 [N1 [C _]]]]]. exists o0, d.
      rewrite N in N1. injection N1 as <-. rewrite <- C. auto.
    + apply (copy_later h rank h1 rank1); assumption.
    + rewrite app_length. simpl. lia.
    + exact Lh.
    + rewrite rank_new_new. apply Rk, L.
    + exact I2.
    + eapply adv_trans; [apply rely_adv, R|apply guar_adv, G].
    + intros l' Ow L'. rewrite nth_ext by lia. apply S; assumption.
  - cbn [bind]. exists own, rank1. split; [apply guar_refl, I1|]. cbn [LearnLogic.ok]. apply Hf; [|exact R].
    intro Z. apply Cl. eapply kept_cloneable; eassumption.
Qed.
End Steps.
