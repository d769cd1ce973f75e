(** A logic for programs on a shared heap: what a program guarantees to others
    while others may change everything it does not own, except parameters. *)
From Coq Require Import String.
From Verif Require Import Base BaseFacts Dict DictFacts ModelCore ModelObjects SpecObjects ObjectFacts ObjectProp ModelValidate
  ModelLearn SpecLearn.
Open Scope nat_scope.
Open Scope list_scope.

Lemma kept_refl h : kept h h.
Proof. intros l o N. exists o. auto. Qed.
Lemma kept_trans h1 h2 h3 : kept h1 h2 -> kept h2 h3 -> kept h1 h3.
Proof.
  intros A B l o N. destruct (A l o N) as [o1 [N1 [C1 P1]]]. destruct (B l o1 N1) as [o2 [N2 [C2 P2]]].
  exists o2. split; [exact N2|]. split; [congruence|]. intros k Hk. rewrite P2 by exact Hk. apply P1, Hk.
Qed.
Lemma kept_length h h' : kept h h' -> length h <= length h'.
Proof.
  intro K. destruct (Nat.le_gt_cases (length h) (length h')) as [|G]; [assumption|].
  destruct (nth_error h (length h')) as [o|] eqn:N; [|apply nth_error_None in N; lia].
  destruct (K _ _ N) as [o' [N' _]]. pose proof (nth_error_lt _ _ _ N'). lia.
Qed.
Lemma kept_attr h h' l k : kept h h' -> l < length h -> param_name k -> attr h' l k = attr h l k.
Proof.
  intros K L P. unfold attr. destruct (nth_error h l) as [o|] eqn:N; [|apply nth_error_None in N; lia].
  destruct (K _ _ N) as [o' [-> [_ E]]]. apply E, P.
Qed.

Section Logic.
Context {F O : Type}.
Variable classes : nat -> class.
Variable beh : nat -> behaviour F O.
Notation heap_ok := (heap_ok classes).
Notation visible := (visible classes).
Notation resolves := (resolves classes).
Notation made := (made classes).
Notation has_protocol := (has_protocol classes).

Definition inv (h : heap) (rank : nat -> nat) : Prop := heap_ok h rank /\ made h.
Definition same_rank (h : heap) (rank rank' : nat -> nat) : Prop := forall l, l < length h -> rank' l = rank l.

(** What other threads may do while this one owns [own]. *)
Definition rely (own : nat -> Prop) (h : heap) rank (h' : heap) rank' : Prop :=
  kept h h' /\ inv h' rank' /\ same_rank h rank rank' /\
  forall l, own l -> l < length h -> nth_error h' l = nth_error h l.

(** What a step of this thread may do: [own'] is what it owns afterwards. *)
Definition guar (own own' : nat -> Prop) (h : heap) rank (h' : heap) rank' : Prop :=
  kept h h' /\ inv h' rank' /\ same_rank h rank rank' /\
  (forall l, l < length h -> ~ own l -> nth_error h' l = nth_error h l) /\
  (forall l, own l -> own' l) /\
  (forall l, own' l -> own l \/ length h <= l < length h').

(** [Q] holds of the result, whatever the others do. *)
Fixpoint ok {A : Type} (p : prog A) (own : nat -> Prop) (h : heap) (rank : nat -> nat)
    (Q : res A -> (nat -> Prop) -> heap -> (nat -> nat) -> Prop) : Prop :=
  match p with
  | Ret r => Q r own h rank
  | Act upd next =>
      forall h1 rank1, rely own h rank h1 rank1 ->
      exists own' rank', guar own own' h1 rank1 (upd h1) rank' /\ ok (next h1) own' (upd h1) rank' Q
  end.

(** How far a program has come. *)
Definition adv (own : nat -> Prop) (h : heap) rank (own' : nat -> Prop) (h' : heap) rank' : Prop :=
  kept h h' /\ inv h' rank' /\ same_rank h rank rank' /\
  (forall l, own l -> own' l) /\ (forall l, own' l -> own l \/ length h <= l).

Lemma rely_refl own h rank : inv h rank -> rely own h rank h rank.
Proof. intro I. split; [apply kept_refl|]. split; [exact I|]. split; [intros l _; reflexivity|]. auto. Qed.
Lemma rely_trans own h1 r1 h2 r2 h3 r3 : rely own h1 r1 h2 r2 -> rely own h2 r2 h3 r3 -> rely own h1 r1 h3 r3.
Proof.
  intros [K1 [I1 [R1 S1]]] [K2 [I2 [R2 S2]]]. pose proof (kept_length _ _ K1).
  split; [eapply kept_trans; eassumption|]. split; [exact I2|]. split.
  - intros l L. rewrite R2 by lia. apply R1, L.
  - intros l Ow L. rewrite S2 by (assumption || lia). apply S1; assumption.
Qed.
Lemma rely_weaken (own own0 : nat -> Prop) h r h' r' : (forall l, own0 l -> own l) -> rely own h r h' r' -> rely own0 h r h' r'.
Proof. intros Hs [K [I [R S]]]. split; [exact K|]. split; [exact I|]. split; [exact R|]. auto. Qed.

Lemma rely_adv own h r h' r' : rely own h r h' r' -> adv own h r own h' r'.
Proof. intros [K [I [R S]]]. split; [exact K|]. split; [exact I|]. split; [exact R|]. auto. Qed.
Lemma guar_adv own own' h r h' r' : guar own own' h r h' r' -> adv own h r own' h' r'.
Proof.
  intros [K [I [R [S [A B]]]]]. split; [exact K|]. split; [exact I|]. split; [exact R|]. split; [exact A|].
  intros l Ow. destruct (B l Ow); [auto|lia].
Qed.
Lemma adv_refl own h r : inv h r -> adv own h r own h r.
Proof. intro I. apply rely_adv, rely_refl, I. Qed.
Lemma adv_trans own1 h1 r1 own2 h2 r2 own3 h3 r3 :
  adv own1 h1 r1 own2 h2 r2 -> adv own2 h2 r2 own3 h3 r3 -> adv own1 h1 r1 own3 h3 r3.
Proof.
  intros [K1 [I1 [R1 [A1 B1]]]] [K2 [I2 [R2 [A2 B2]]]]. pose proof (kept_length _ _ K1).
  split; [eapply kept_trans; eassumption|]. split; [exact I2|]. split; [|split].
  - intros l L. rewrite R2 by lia. apply R1, L.
  - auto.
  - intros l Ow. destruct (B2 l Ow) as [Q|Q]; [apply B1, Q|right; lia].
Qed.
Lemma guar_refl own h r : inv h r -> guar own own h r h r.
Proof. intro I. split; [apply kept_refl|]. split; [exact I|]. split; [intros l _; reflexivity|]. auto. Qed.

Lemma ok_imp {A : Type} (p : prog A) own h rank (Q Q' : res A -> (nat -> Prop) -> heap -> (nat -> nat) -> Prop) :
  ok p own h rank Q -> (forall r own' h' rank', Q r own' h' rank' -> Q' r own' h' rank') -> ok p own h rank Q'.
Proof.
  revert own h rank. induction p as [r|upd next IH]; intros own h rank H I; simpl in *; [apply I, H|].
  intros h1 rank1 R. destruct (H h1 rank1 R) as [own' [rank' [G K]]]. exists own', rank'. split; [exact G|]. apply IH; assumption.
Qed.

Lemma ok_adv {A : Type} (p : prog A) own h rank Q : inv h rank -> ok p own h rank Q ->
  ok p own h rank (fun r own' h' rank' => Q r own' h' rank' /\ adv own h rank own' h' rank').
Proof.
  revert own h rank. induction p as [r|upd next IH]; intros own h rank I H; simpl in *.
  - split; [exact H|apply adv_refl, I].
  - intros h1 rank1 R. destruct (H h1 rank1 R) as [own' [rank' [G K]]]. exists own', rank'. split; [exact G|].
    assert (I' : inv (upd h1) rank') by (destruct G as [_ [G _]]; exact G).
    eapply ok_imp; [apply (IH h1 own' (upd h1) rank' I' K)|].
    intros r own2 h2 rank2 [HQ Ad]. split; [exact HQ|].
    eapply adv_trans; [apply rely_adv, R|]. eapply adv_trans; [apply guar_adv, G|exact Ad].
Qed.

Lemma ok_bind {A B : Type} (p : prog A) (f : A -> prog B) own h rank Q :
  ok p own h rank (fun r own' h' rank' => match r with Ok a => ok (f a) own' h' rank' Q | Err e => Q (Err e) own' h' rank' end) ->
  ok (pbind p f) own h rank Q.
Proof.
  revert own h rank. induction p as [[a|e]|upd next IH]; intros own h rank H; simpl in *; [exact H|exact H|].
  intros h1 rank1 R. destruct (H h1 rank1 R) as [own' [rank' [G K]]]. exists own', rank'. split; [exact G|]. apply IH, K.
Qed.

(** The usual form: the postcondition of the first part comes with how far it came. *)
Lemma ok_seq {A B : Type} (p : prog A) (f : A -> prog B) own h rank
    (P : res A -> (nat -> Prop) -> heap -> (nat -> nat) -> Prop) (Q : res B -> (nat -> Prop) -> heap -> (nat -> nat) -> Prop) :
  inv h rank -> ok p own h rank P ->
  (forall e own' h' rank', P (Err e) own' h' rank' -> adv own h rank own' h' rank' -> Q (Err e) own' h' rank') ->
  (forall a own' h' rank', P (Ok a) own' h' rank' -> adv own h rank own' h' rank' -> ok (f a) own' h' rank' Q) ->
  ok (pbind p f) own h rank Q.
Proof.
  intros I Hp He Ha. apply ok_bind. eapply ok_imp; [apply (ok_adv _ _ _ _ _ I Hp)|].
  intros [a|e] own' h' rank' [HP Ad]; [apply Ha|apply He]; assumption.
Qed.

Lemma ok_catch {A : Type} (p : prog A) (f : exn -> prog A) own h rank Q :
  ok p own h rank (fun r own' h' rank' => match r with Err e => ok (f e) own' h' rank' Q | Ok a => Q (Ok a) own' h' rank' end) ->
  ok (pcatch p f) own h rank Q.
Proof.
  revert own h rank. induction p as [[a|e]|upd next IH]; intros own h rank H; simpl in *; [exact H|exact H|].
  intros h1 rank1 R. destruct (H h1 rank1 R) as [own' [rank' [G K]]]. exists own', rank'. split; [exact G|]. apply IH, K.
Qed.

(** What a part of the program does not own, it does not change. *)
Lemma ok_frame {A : Type} (p : prog A) (own0 own : nat -> Prop) h rank Q :
  (forall l, own0 l -> own l) -> ok p own0 h rank Q ->
  ok p own h rank (fun r own' h' rank' => exists own0', Q r own0' h' rank' /\ (forall l, own0' l -> own' l) /\
    forall l, own l -> ~ own0 l -> l < length h -> nth_error h' l = nth_error h l).
Proof.
  revert own0 own h rank. induction p as [r|upd next IH]; intros own0 own h rank Hs H; simpl in *.
  - exists own0. auto.
  - intros h1 rank1 R. destruct (H h1 rank1 (rely_weaken _ _ _ _ _ _ Hs R)) as [own0' [rank' [G K]]].
    destruct G as [G1 [G2 [G3 [G4 [G5 G6]]]]].
    exists (fun l => own l \/ own0' l), rank'. split.
    + split; [exact G1|]. split; [exact G2|]. split; [exact G3|]. split; [|split].
      * intros l L N. apply G4; [exact L|]. intro Z. apply N, Hs, Z.
      * auto.
      * intros l [Z|Z]; [auto|]. destruct (G6 l Z); auto.
    + eapply ok_imp; [apply (IH h1 own0' (fun l => own l \/ own0' l) (upd h1) rank'); [auto|exact K]|].
      intros r own' h' rank2 [own2 [HQ [Hs2 Un]]]. exists own2. split; [exact HQ|]. split; [exact Hs2|].
      intros l Ow N L. destruct R as [K1 [_ [_ S1]]]. pose proof (kept_length _ _ K1).
      rewrite Un.
      * rewrite G4 by (lia || assumption). apply S1; assumption.
      * auto.
      * intro Z. destruct (G6 l Z); [contradiction|lia].
      * pose proof (kept_length _ _ G1). lia.
Qed.

(** Running a program alone. *)
Lemma ok_run {A : Type} (p : prog A) own h rank Q : inv h rank -> ok p own h rank Q ->
  exists own' rank', Q (snd (run p h)) own' (fst (run p h)) rank' /\ adv own h rank own' (fst (run p h)) rank'.
Proof.
  intros I H. apply (ok_adv _ _ _ _ _ I) in H. 
  assert (G : forall (p : prog A) own h rank Q, inv h rank -> ok p own h rank Q ->
    exists own' rank', Q (snd (run p h)) own' (fst (run p h)) rank').
  { clear. intro p. induction p as [r|upd next IH]; intros own h rank Q I H; simpl in *; [eauto|].
    destruct (H h rank (rely_refl _ _ _ I)) as [own' [rank' [[_ [I' _]] K]]]. eapply IH; eassumption. }
  destruct (G _ _ _ _ _ I H) as [own' [rank' X]]. exists own', rank'. exact X.
Qed.

(** *** Stability of facts about parameters *)
Lemma kept_nth h h' l : kept h h' -> l < length h -> exists o o', nth_error h l = Some o /\ nth_error h' l = Some o' /\ o_class o' = o_class o /\
  forall k, param_name k -> attr_of o' k = attr_of o k.
Proof.
  intros K L. destruct (nth_error h l) as [o|] eqn:N; [|apply nth_error_None in N; lia].
  destruct (K _ _ N) as [o' [N' [C P]]]. exists o, o'. auto.
Qed.
Lemma kept_behaves h h' l b : kept h h' -> behaves beh h l b -> behaves beh h' l b.
Proof. intros K [o [N E]]. destruct (K _ _ N) as [o' [N' [C _]]]. exists o'. rewrite C. auto. Qed.
Lemma kept_behaves_inv h h' l b : kept h h' -> l < length h -> behaves beh h' l b -> behaves beh h l b.
Proof.
  intros K L [o [N E]]. destruct (kept_nth _ _ _ K L) as [o1 [o2 [N1 [N2 [C _]]]]]. exists o1. split; [exact N1|]. congruence.
Qed.
Lemma behaves_lt h l b : behaves beh h l b -> l < length h.
Proof. intros [o [N _]]. eapply nth_error_lt, N. Qed.
Lemma behaves_fun h l b b' : behaves beh h l b -> behaves beh h l b' -> b = b'.
Proof. intros [o [N E]] [o' [N' E']]. congruence. Qed.
Lemma kept_cloneable h h' l : kept h h' -> cloneable classes h l -> cloneable classes h' l.
Proof. intros K [o [d [N [P E]]]]. destruct (K _ _ N) as [o' [N' [C _]]]. exists o', d. rewrite C. auto. Qed.
Lemma kept_protocol h h' l : kept h h' -> l < length h -> (has_protocol h' l <-> has_protocol h l).
Proof.
  intros K L. destruct (kept_nth _ _ _ K L) as [o [o' [N [N' [C _]]]]]. unfold SpecObjects.has_protocol.
  split; intros [x [Nx P]]; [exists o|exists o']; (split; [assumption|]); congruence.
Qed.
Lemma visible_param h rank l k : heap_ok h rank -> visible h l k -> param_name k.
Proof.
  intros W [o [N V]]. destruct (c_protocol (classes (o_class o))) eqn:E; [apply V| |contradiction].
  apply (ho_sk _ _ _ W _ _ _ N E), V.
Qed.
Lemma kept_visible h h' rank rank' l k : kept h h' -> heap_ok h rank -> heap_ok h' rank' -> l < length h ->
  (visible h' l k <-> visible h l k).
Proof.
  intros K W W' L. destruct (kept_nth _ _ _ K L) as [o [o' [N [N' [C P]]]]]. unfold SpecObjects.visible. split.
  - intros [x [Nx V]]. rewrite N' in Nx. injection Nx as <-. exists o. split; [exact N|]. rewrite C in V.
    destruct (c_protocol (classes (o_class o))); auto. destruct V as [Hk [v A]]. split; [exact Hk|]. exists v. rewrite <- P; assumption.
  - intros [x [Nx V]]. rewrite N in Nx. injection Nx as <-. exists o'. split; [exact N'|]. rewrite C.
    destruct (c_protocol (classes (o_class o))); auto. destruct V as [Hk [v A]]. split; [exact Hk|]. exists v. rewrite P; assumption.
Qed.
Lemma kept_resolves h h' rank rank' l key v : kept h h' -> heap_ok h rank -> heap_ok h' rank' -> l < length h ->
  (resolves h' l key v <-> resolves h l key v).
Proof.
  intros K W W' L. split; intro R; revert L; induction R as [l k v V A|l k l' j v V A P R IH]; intro L.
  - apply (kept_visible _ _ _ _ _ _ K W W' L) in V. rewrite (kept_attr _ _ _ _ K L (visible_param _ _ _ _ W V)) in A. apply res_here; assumption.
  - apply (kept_visible _ _ _ _ _ _ K W W' L) in V. rewrite (kept_attr _ _ _ _ K L (visible_param _ _ _ _ W V)) in A.
    destruct (ho_refs _ _ _ W _ _ _ V A) as [L' _].
    eapply res_nested; [exact V|exact A|apply (kept_protocol _ _ _ K L'); exact P|apply IH, L'].
  - apply res_here; [apply (kept_visible _ _ _ _ _ _ K W W' L); exact V|].
    rewrite (kept_attr _ _ _ _ K L (visible_param _ _ _ _ W V)). exact A.
  - destruct (ho_refs _ _ _ W _ _ _ V A) as [L' _].
    eapply res_nested; [apply (kept_visible _ _ _ _ _ _ K W W' L); exact V
      |rewrite (kept_attr _ _ _ _ K L (visible_param _ _ _ _ W V)); exact A|apply (kept_protocol _ _ _ K L'); exact P|apply IH, L'].
Qed.
End Logic.
