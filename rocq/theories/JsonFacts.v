(** Facts about the texts of graphs. *)
From Coq Require Import String Ascii List ZArith Lia DecimalString DecimalZ.
From Verif Require Import Base BaseFacts Dict ModelArith ModelCore SpecCore ModelDraw ModelApp ModelJson SpecJson.
Import ListNotations.
Open Scope list_scope. Open Scope nat_scope.

Section Induct.
Variable P : json -> Prop.
Hypothesis HB : forall b, P (JBool b).
Hypothesis HI : forall z, P (JInt z).
Hypothesis HL : forall l, Forall P l -> P (JList l).
Hypothesis HO : forall l, Forall (fun kv => P (snd kv)) l -> P (JObj l).
Fixpoint json_induct (j : json) : P j :=
  match j with
  | JBool b => HB b
  | JInt z => HI z
  | JList l => HL l ((fix go l : Forall P l := match l with [] => Forall_nil _ | x :: r => Forall_cons _ (json_induct x) (go r) end) l)
  | JObj l => HO l ((fix go l : Forall (fun kv => P (snd kv)) l := match l with [] => Forall_nil _ | x :: r => Forall_cons x (json_induct (snd x)) (go r) end) l)
  end.
End Induct.

(** *** Numbers *)
Definition num_char (c : ascii) : bool := existsb (Ascii.eqb c) (la "-0123456789").
Definition stops (r : text) : Prop := match r with c :: _ => num_char c = false | [] => True end.
Lemma span_eq s : forall s' r r', forallb num_char s = true -> forallb num_char s' = true -> stops r -> stops r' -> s ++ r = s' ++ r' -> s = s' /\ r = r'.
Proof.
  induction s as [|c s IH]; intros [|c' s'] r r' F F' R R' E; cbn in *.
  - auto.
  - subst r. cbn in R. apply andb_prop in F'. destruct F' as [F' _]. congruence.
  - subst r'. cbn in R'. apply andb_prop in F. destruct F as [F _]. congruence.
  - apply andb_prop in F. apply andb_prop in F'. destruct F as [_ F], F' as [_ F']. injection E as <- E.
    destruct (IH s' r r' F F' R R' E) as [<- <-]. auto.
Qed.
Lemma uint_chars d : forallb num_char (la (NilEmpty.string_of_uint d)) = true.
Proof. induction d; cbn in *; auto. Qed.
Definition num_text (z : Z) : text := la (NilZero.string_of_int (Z.to_int z)).
Lemma num_chars z : forallb num_char (num_text z) = true.
Proof.
  unfold num_text. destruct (Z.to_int z) as [d|d]; cbn; unfold NilZero.string_of_uint; destruct d; cbn; try reflexivity; apply uint_chars.
Qed.
Lemma num_head z : exists c r, num_text z = c :: r /\ num_char c = true.
Proof.
  pose proof (num_chars z) as F. destruct (num_text z) as [|c r] eqn:E.
  - exfalso. unfold num_text in E. destruct (Z.to_int z) as [d|d]; cbn in E; [|discriminate]. unfold NilZero.string_of_uint in E. destruct d; discriminate.
  - exists c, r. split; [reflexivity|]. cbn in F. apply andb_prop in F. apply F.
Qed.
Lemma la_inj a b : la a = la b -> a = b.
Proof. intro H. rewrite <- (string_of_list_ascii_of_string a). unfold la in H. rewrite H. apply string_of_list_ascii_of_string. Qed.
Lemma num_inj z z' : num_text z = num_text z' -> z = z'.
Proof.
  intro H. apply la_inj in H. apply to_int_inj.
  assert (K : forall y, NilZero.int_of_string (NilZero.string_of_int (Z.to_int y)) = Some (Z.to_int y)).
  { intro y. apply NilZero.isi; intro E.
    - destruct y as [|p|p]; cbn in E; try discriminate. injection E as E. apply (f_equal Pos.of_uint) in E. rewrite DecimalPos.Unsigned.of_to in E. discriminate.
    - destruct y as [|p|p]; cbn in E; try discriminate. injection E as E. apply (f_equal Pos.of_uint) in E. rewrite DecimalPos.Unsigned.of_to in E. discriminate. }
  pose proof (K z) as K1. rewrite H, K in K1. injection K1 as K1. symmetry. exact K1.
Qed.

(** *** Values *)
(** A text is read back before anything that does not continue a number. *)
Definition reads {T : Type} (p : T -> text) (ok : T -> Prop) (x : T) : Prop :=
  forall y r r', ok y -> stops r -> stops r' -> p x ++ r = p y ++ r' -> x = y /\ r = r'.
(** Items do not begin with the end of a list or an object. *)
Definition opens_well (t : text) : Prop := match t with c :: _ => c <> "]"%char /\ c <> "}"%char | [] => False end.

Lemma tail_reads {T} (p : T -> text) ok close l : (close = "]" \/ close = "}")%char -> Forall (reads p ok) l ->
  forall l' r r', Forall ok l' ->
  flat_map (fun y => la ", " ++ y) (map p l) ++ close :: r = flat_map (fun y => la ", " ++ y) (map p l') ++ close :: r' -> l = l' /\ r = r'.
Proof.
  intros C F. induction F as [|x l Hx F IH]; intros [|y l'] r r' O E; cbn in E.
  - injection E as ->. auto.
  - exfalso. destruct C as [->| ->]; discriminate.
  - exfalso. destruct C as [->| ->]; discriminate.
  - injection E as E. apply Forall_inv in O as Oy. apply Forall_inv_tail in O. rewrite <- !app_assoc in E.
    assert (St : forall m q, stops (flat_map (fun y => la ", " ++ y) (map p m) ++ close :: q)) by (intros [|? ?] q; cbn; [destruct C as [->| ->]; reflexivity|reflexivity]).
    destruct (Hx y _ _ Oy (St l r) (St l' r') E) as [<- E']. destruct (IH l' r r' O E') as [<- <-]. auto.
Qed.
Lemma list_reads {T} (p : T -> text) (ok : T -> Prop) close l : (close = "]" \/ close = "}")%char -> (forall x, opens_well (p x)) -> Forall (reads p ok) l ->
  forall l' r r', Forall ok l' -> join (map p l) ++ close :: r = join (map p l') ++ close :: r' -> l = l' /\ r = r'.
Proof.
  intros C B F l' r r' O E. destruct F as [|x l Hx F], l' as [|y l']; cbn [map join] in E.
  - cbn in E. injection E as ->. auto.
  - exfalso. pose proof (B y) as Y. destruct (p y) as [|c t]; [exact Y|]. cbn in E. injection E as E _. subst c. destruct Y, C as [->| ->]; congruence.
  - exfalso. pose proof (B x) as X. destruct (p x) as [|c t]; [exact X|]. cbn in E. injection E as E _. subst c. destruct X, C as [->| ->]; congruence.
  - rewrite <- !app_assoc in E. apply Forall_inv in O as Oy. apply Forall_inv_tail in O.
    assert (St : forall m q, stops (flat_map (fun y => la ", " ++ y) (map p m) ++ close :: q)) by (intros [|? ?] q; cbn; [destruct C as [->| ->]; reflexivity|reflexivity]).
    destruct (Hx y _ _ Oy (St l r) (St l' r') E) as [<- E'].
    destruct (tail_reads p ok close l C F l' r r' O E') as [<- <-]. auto.
Qed.

Lemma key_reads k k' r r' : plain_key k -> plain_key k' -> key_text k ++ r = key_text k' ++ r' -> k = k' /\ r = r'.
Proof.
  intros [P _] [P' _] E. unfold key_text in E. cbn in E. injection E as E. rewrite <- !app_assoc in E. cbn in E.
  assert (Q : forall s s' : text, ~ In """"%char s -> ~ In """"%char s' -> forall t t', s ++ """"%char :: t = s' ++ """"%char :: t' -> s = s' /\ t = t').
  { induction s as [|c s IH]; intros [|c' s'] N N' t t' H; cbn in H.
    - injection H as ->. auto.
    - injection H as <- _. exfalso. apply N'. cbn; auto.
    - injection H as -> _. exfalso. apply N. cbn; auto.
    - injection H as <- H. destruct (IH s' ltac:(cbn in N; tauto) ltac:(cbn in N'; tauto) t t' H) as [<- <-]. auto. }
  destruct (Q _ _ P P' _ _ E) as [E1 E2]. apply la_inj in E1. injection E2 as E2. auto.
Qed.
Lemma dumps_open j : exists c r, dumps j = c :: r /\ match j with JBool _ => c = "t" \/ c = "f" | JInt _ => num_char c = true | JList _ => c = "[" | JObj _ => c = "{" end%char.
Proof.
  destruct j as [[]|z|l|l]; cbn [dumps].
  - cbn. eauto.
  - cbn. eauto.
  - destruct (num_head z) as [c [r [E N]]]. exists c, r. auto.
  - cbn. eauto.
  - cbn. eauto.
Qed.
Lemma num_char_cases c : num_char c = true -> In c (la "-0123456789").
Proof. unfold num_char. intro H. apply existsb_exists in H. destruct H as [d [I E]]. apply Ascii.eqb_eq in E. subst. exact I. Qed.
Lemma dumps_opens_well j : opens_well (dumps j).
Proof.
  destruct (dumps_open j) as [c [r [-> H]]]. cbn. destruct j; [destruct H as [->| ->]; split; discriminate| |subst; split; discriminate|subst; split; discriminate].
  apply num_char_cases in H. cbn in H. intuition (subst; discriminate).
Qed.
Lemma plain_list l : plain (JList l) <-> Forall plain l.
Proof. cbn. induction l as [|x l IH]; cbn; [split; auto|]. rewrite IH. split; [intros [A B]; constructor; assumption|]. intro F. split; [apply Forall_inv in F|apply Forall_inv_tail in F]; exact F. Qed.
Definition plain_entry (kv : string * json) : Prop := plain_key (fst kv) /\ plain (snd kv).
Lemma plain_obj l : plain (JObj l) <-> Forall plain_entry l.
Proof. cbn. induction l as [|x l IH]; cbn; [split; auto|]. rewrite IH. split; [intros [A B]; constructor; assumption|]. intro F. split; [apply Forall_inv in F|apply Forall_inv_tail in F]; exact F. Qed.

Lemma dumps_reads j : plain j -> reads dumps plain j.
Proof.
  induction j as [b|z|l IH|l IH] using json_induct; intros Pj j' r r' Pj' R R' E;
    destruct (dumps_open j') as [c [t [Et Hc]]].
  - destruct j' as [b'|z'|l'|l'].
    + destruct b, b'; cbn in E; try discriminate; injection E as ->; auto.
    + exfalso. rewrite Et in E. apply num_char_cases in Hc. cbn in Hc. destruct b; cbn in E; injection E as <- _; intuition discriminate.
    + exfalso. rewrite Et in E. subst c. destruct b; discriminate.
    + exfalso. rewrite Et in E. subst c. destruct b; discriminate.
  - destruct (num_head z) as [d [u [Ed Nd]]]. assert (E2 := E). cbn [dumps] in E. fold (num_text z) in E.
    destruct j' as [b'|z'|l'|l'].
    + exfalso. rewrite Et, Ed in E. injection E as -> _. apply num_char_cases in Nd. cbn in Nd. destruct Hc as [->| ->]; intuition discriminate.
    + cbn [dumps] in E. fold (num_text z') in E. destruct (span_eq _ _ _ _ (num_chars z) (num_chars z') R R' E) as [En ->]. apply num_inj in En. subst. auto.
    + exfalso. rewrite Et, Ed in E. injection E as -> _. subst c. discriminate.
    + exfalso. rewrite Et, Ed in E. injection E as -> _. subst c. discriminate.
  - destruct j' as [b'|z'|l'|l'];
      try solve [exfalso; rewrite Et in E; cbn in E; injection E as Ec _; subst c;
        first [discriminate|destruct Hc; discriminate|apply num_char_cases in Hc; cbn in Hc; intuition discriminate]].
    apply plain_list in Pj. apply plain_list in Pj'. cbn [dumps] in E. cbn [la list_ascii_of_string app] in E. injection E as E.
    rewrite <- !app_assoc in E. cbn [app] in E.
    destruct (list_reads dumps plain "]" l (or_introl eq_refl) dumps_opens_well) with (l' := l') (r := r) (r' := r') as [-> ->]; auto.
    rewrite Forall_forall in IH, Pj |- *. intros x X. apply IH; auto.
  - destruct j' as [b'|z'|l'|l'];
      try solve [exfalso; rewrite Et in E; cbn in E; injection E as Ec _; subst c;
        first [discriminate|destruct Hc; discriminate|apply num_char_cases in Hc; cbn in Hc; intuition discriminate]].
    apply plain_obj in Pj. apply plain_obj in Pj'. cbn [dumps] in E. cbn [la list_ascii_of_string app] in E. injection E as E.
    rewrite <- !app_assoc in E. cbn [app] in E.
    destruct (list_reads (fun kv => key_text (fst kv) ++ dumps (snd kv)) plain_entry "}" l (or_intror eq_refl)) with (l' := l') (r := r) (r' := r') as [-> ->]; auto.
    + intro x. cbn. split; discriminate.
    + rewrite Forall_forall in IH, Pj |- *. intros [k x] X. specialize (IH (k, x) X). specialize (Pj (k, x) X). destruct Pj as [Pk Px]. cbn [fst snd] in *.
      intros [k' x'] s s' [Pk' Px'] Rs Rs' Es. cbn [fst snd] in *. rewrite <- !app_assoc in Es.
      destruct (key_reads k k' _ _ Pk Pk' Es) as [<- Es']. destruct (IH Px x' s s' Px' Rs Rs' Es') as [<- <-]. auto.
Qed.
