(** Proofs that texts can be read back in one way only. *)
From Coq Require Import String Ascii.
From Verif Require Import Base BaseFacts Dict DictFacts ModelCore ModelObjects SpecObjects ModelRepr SpecRepr ObjectFacts ReprProp SpecReprText.
Open Scope nat_scope.
Open Scope list_scope.

Lemma level_app s : forall d t, level d (s ++ t) = match level d s with Some d' => level d' t | None => None end.
Proof.
  induction s as [|c s IH]; intros d t; simpl; [reflexivity|].
  destruct (opening c); [apply IH|]. destruct (closing c); [destruct d; [reflexivity|apply IH]|].
  destruct (Ascii.eqb c ","); [destruct d; [reflexivity|apply IH]|apply IH].
Qed.

(** Deeper inside brackets. *)
Lemma level_deeper s : forall d d' n, level d s = Some d' -> level (d + n) s = Some (d' + n).
Proof.
  induction s as [|c s IH]; intros d d' n; simpl; [intros [= ->]; reflexivity|].
  destruct (opening c); [apply (IH (S d))|]. destruct (closing c).
  - destruct d as [|d]; [discriminate|]. simpl. apply IH.
  - destruct (Ascii.eqb c ","); [|apply IH]. destruct d as [|d]; [discriminate|]. simpl. apply (IH (S d)).
Qed.

Lemma level_name s d : simple_name s -> level d s = Some d.
Proof.
  unfold simple_name. induction s as [|c s IH]; simpl; [reflexivity|]. intros F. inversion F as [|? ? [O [C [K _]]] F']; subst.
  rewrite O, C. destruct (Ascii.eqb_spec c ","); [contradiction|apply IH, F'].
Qed.

(** The first item is the longest text without an outer comma. *)
Lemma first_item s : forall s' d r r', level d s = Some 0 -> level d s' = Some 0 ->
  (r = "" \/ exists x, r = String "," x)%string -> (r' = "" \/ exists x, r' = String "," x)%string ->
  (s ++ r = s' ++ r')%string -> s = s' /\ r = r'.
Proof.
  induction s as [|c s IH]; intros s' d r r' L L' R R' E; simpl in *.
  - injection L as ->. destruct s' as [|c' s']; [auto|]. exfalso. simpl in E. subst r.
    destruct R as [R|[x R]]; [discriminate|]. injection R as -> _. simpl in L'. discriminate.
  - destruct s' as [|c' s'].
    + exfalso. simpl in E, L'. injection L' as ->. subst r'.
      destruct R' as [R'|[x R']]; [discriminate|]. injection R' as -> _. simpl in L. discriminate.
    + simpl in E. injection E as <- E. simpl in L'.
      enough (s = s' /\ r = r') by (destruct H; subst; auto).
      destruct (opening c); [eapply IH; eauto|]. destruct (closing c); [destruct d; [discriminate|eapply IH; eauto]|].
      destruct (Ascii.eqb c ","); [destruct d; [discriminate|]|]; eapply IH; eauto.
Qed.

Lemma concat_cons x ts : String.concat ", " (x :: ts) = (x ++ match ts with [] => "" | _ => ", " ++ String.concat ", " ts end)%string.
Proof. destruct ts; simpl; [|reflexivity]. induction x as [|c x IH]; simpl; [reflexivity|f_equal; exact IH]. Qed.

Lemma items_differ ts : forall ts', Forall (fun t => one_item t /\ t <> ""%string) ts -> Forall (fun t => one_item t /\ t <> ""%string) ts' ->
  String.concat ", " ts = String.concat ", " ts' -> ts = ts'.
Proof.
  induction ts as [|t ts IH]; intros [|t' ts'] F F' E; [reflexivity| | |].
  - rewrite concat_cons in E. inversion F' as [|? ? [_ N] _]; subst. destruct t'; [contradiction|discriminate E].
  - rewrite concat_cons in E. inversion F as [|? ? [_ N] _]; subst. destruct t; [contradiction|discriminate E].
  - rewrite !concat_cons in E. inversion F as [|? ? [I _] F1]; subst. inversion F' as [|? ? [I' _] F1']; subst.
    apply (first_item t t' 0) in E; [| exact I|exact I'|destruct ts; [auto|right; eexists; reflexivity]|destruct ts'; [auto|right; eexists; reflexivity]].
    destruct E as [-> E]. f_equal.
    destruct ts as [|u ts], ts' as [|u' ts']; [reflexivity|discriminate|discriminate|].
    injection E as E. apply IH; assumption.
Qed.

(** What precedes the first of a mark. *)
Lemma before_mark (P : ascii -> Prop) m a : ~ P m -> forall b r r', Forall P (chars a) -> Forall P (chars b) ->
  (a ++ String m r = b ++ String m r')%string -> a = b /\ r = r'.
Proof.
  intros NP. induction a as [|c a IH]; intros [|c' b] r r' F F' E; simpl in *.
  - injection E as E. auto.
  - injection E as -> _. inversion F'; contradiction.
  - injection E as -> _. inversion F; contradiction.
  - injection E as <- E. inversion F; inversion F'; subst. destruct (IH b r r') as [-> ->]; auto.
Qed.

Lemma app_same_end a : forall b c, (a ++ String c "" = b ++ String c "")%string -> a = b.
Proof.
  induction a as [|x a IH]; intros [|y b] c E; simpl in *; [reflexivity| | |].
  - injection E as _ E. destruct b; discriminate.
  - injection E as _ E. destruct a; discriminate.
  - injection E as -> E. f_equal. eapply IH; eauto.
Qed.

Section Tidy.
Variable classes : nat -> class.
Variable class_name : nat -> string.
Variable repr_atom : value -> string.
Variable repr_foreign : obj -> string.
Notation render := (render class_name).
Notation repr_expr := (repr_expr classes class_name repr_atom repr_foreign).
Notation mixin := (mixin classes).
Notation plain_text := (plain_text classes class_name).

Inductive tidy : rexpr -> Prop :=
| ti_atom s : plain_text s -> tidy (RAtom s)
| ti_call c args : mixin c -> Forall (fun a => simple_name (fst a) /\ tidy (snd a)) args -> tidy (RCall c args).

Fixpoint size (e : rexpr) : nat :=
  match e with
  | RAtom _ => 0
  | RCall _ args => S (fold_right (fun a n => size (snd a) + n) 0 args)
  end.
Lemma size_arg k e (args : list (string * rexpr)) : In (k, e) args -> size e <= fold_right (fun a n => size (snd a) + n) 0 args.
Proof. induction args as [|a args IH]; [intros []|]. intros [->|I]; simpl; [lia|]. apply IH in I. lia. Qed.

Hypothesis ND : names_differ classes class_name.

Definition name_char (c : ascii) : Prop := opening c = false /\ closing c = false /\ c <> ","%char /\ c <> "="%char.
Lemma open_not_simple : ~ name_char "(".
Proof. intros [O _]. discriminate O. Qed.
Lemma eq_not_simple : ~ name_char "=".
Proof. intros [_ [_ [_ O]]]. congruence. Qed.

Lemma level_item d s : one_item s -> level d s = Some d.
Proof. intros I. apply (level_deeper s 0 0 d) in I. exact I. Qed.

Lemma level_list d ts : Forall one_item ts -> level (S d) (String.concat ", " ts) = Some (S d).
Proof.
  induction ts as [|t ts IH]; intros F; [reflexivity|]. inversion F; subst. rewrite concat_cons, level_app, level_item by assumption.
  destruct ts as [|u ts]; [reflexivity|]. simpl append. simpl level. apply IH. assumption.
Qed.

Lemma item_arg k s : simple_name k -> one_item s -> one_item (k ++ "=" ++ s).
Proof. intros N I. unfold one_item. rewrite level_app, level_name by assumption. exact I. Qed.

Definition arg_text (a : string * rexpr) : string := let '(k, x) := a in (k ++ "=" ++ render x)%string.

Lemma tidy_item n : forall e, size e < n -> tidy e -> one_item (render e).
Proof.
  induction n as [|n IH]; intros e B T; [lia|]. destruct T as [s [I _]|c args M F]; [exact I|].
  unfold one_item. simpl render. rewrite level_app, level_name by (apply ND, M). simpl append. simpl level.
  rewrite level_app, level_list; [reflexivity|].
  rewrite Forall_forall. intros t It. apply in_map_iff in It. destruct It as [[k x] [<- It]].
  rewrite Forall_forall in F. destruct (F _ It) as [S T]. apply item_arg; [exact S|]. apply IH; [|exact T].
  simpl in B. pose proof (size_arg _ _ _ It). simpl. lia.
Qed.

Lemma args_items args : Forall (fun a => simple_name (fst a) /\ tidy (snd a)) args ->
  Forall (fun t => one_item t /\ t <> ""%string) (map arg_text args).
Proof.
  intros F. rewrite Forall_forall in *. intros t It. apply in_map_iff in It. destruct It as [[k x] [<- It]].
  destruct (F _ It) as [Sk T]. split; [apply item_arg; [exact Sk|apply (tidy_item (S (size (snd (k, x)))) _ (le_n _) T)]|].
  simpl. destruct k; discriminate.
Qed.

(** Different expressions have different texts. *)
Lemma render_inj n : forall e e', size e < n -> tidy e -> tidy e' -> render e = render e' -> e = e'.
Proof.
  induction n as [|n IH]; intros e e' B T T' E; [lia|].
  destruct T as [s [I P]|c args M F]; destruct T' as [s' [I' P']|c' args' M' F']; simpl in E.
  - subst. reflexivity.
  - exfalso. exact (P _ _ M' E).
  - exfalso. exact (P' _ _ M (eq_sym E)).
  - apply (before_mark name_char "("%char _ open_not_simple) in E; [|apply ND, M|apply ND, M'].
    destruct E as [N E]. apply (proj2 ND) in N; [|exact M|exact M']. subst c'. f_equal.
    apply app_same_end in E. apply items_differ in E; [|apply (args_items _ F)|apply (args_items _ F')].
    assert (Bs : forall k x, In (k, x) args -> size x < n) by (intros k x J; apply size_arg in J; simpl in B; lia).
    clear B M M'. revert args' F' E. induction args as [|[k x] args IHa]; intros [|[k' x'] args'] F' E; try discriminate; [reflexivity|].
    injection E as E Es. inversion F as [|? ? [S T] F1]; inversion F' as [|? ? [S' T'] F1']; subst.
    apply (before_mark name_char "="%char _ eq_not_simple) in E; [|exact S|exact S'].
    destruct E as [-> E]. f_equal.
    + f_equal. apply IH; try assumption. apply (Bs k'). left. reflexivity.
    + apply IHa; [exact F1| |exact F1'|exact Es]. intros. eapply Bs. right. eassumption.
Qed.

Lemma lists_tidy text d kvs args : lists class_name text d kvs args ->
  (forall k v e, In (k, v) (public_entries kvs) -> text v = Ok e -> simple_name k /\ tidy e) ->
  Forall (fun a => simple_name (fst a) /\ tidy (snd a)) args.
Proof.
  intros L. induction L as [|k v kvs args Pk L IH|k v v0 e0 e kvs args Pk G T0 T X L IH|k v v0 e0 e kvs args Pk G T0 T X L IH]; intros H.
  - constructor.
  - apply IH. intros k' v' e' I. apply H. unfold public_entries in *. simpl. rewrite Pk. exact I.
  - apply IH. intros k' v' e' I. apply H. unfold public_entries in *. simpl. rewrite Pk. right. exact I.
  - constructor.
    + apply (H k v); [|exact T]. unfold public_entries. simpl. rewrite Pk. left. reflexivity.
    + apply IH. intros k' v' e' I. apply H. unfold public_entries in *. simpl. rewrite Pk. right. exact I.
Qed.

Lemma repr_tidy lim : forall h v e, plain_texts classes class_name repr_atom repr_foreign h ->
  (plain v -> plain_text (repr_atom v)) -> repr_expr lim h v = Ok e -> tidy e.
Proof.
  induction lim as [|lim IH]; intros h v e PT Pv E; [discriminate|].
  assert (Dv : plain v \/ exists l, v = VRef l) by (destruct v; try (left; intros ? ?; discriminate); right; eauto).
  destruct Dv as [Dv|[l ->]].
  - rewrite (repr_plain classes class_name repr_atom repr_foreign lim h v Dv) in E. injection E as <-. constructor. apply Pv, Dv.
  - simpl in E. unfold rd in E. destruct (nth_error h l) as [o|] eqn:N; [|discriminate E]. simpl in E.
    destruct (PT l o N) as [A B].
    destruct (c_protocol (classes (o_class o))) eqn:P;
      [|injection E as <-; constructor; apply B; unfold SpecReprText.mixin; congruence..].
    destruct (c_init (classes (o_class o))) as [d|] eqn:I; [|discriminate E].
    assert (E' : repr_expr (S lim) h (VRef l) = Ok e) by (simpl; unfold rd; rewrite N; simpl; rewrite P, I; exact E).
    apply (repr_object _ _ _ _ lim h l o d e N P I) in E'. destruct E' as [args [L ->]].
    constructor; [exact P|]. apply (lists_tidy _ _ _ _ L). intros k w x J T.
    destruct (A P k w J) as [Sk Pw]. split; [exact Sk|]. exact (IH h w x PT Pw T).
Qed.
End Tidy.
