(** Proofs about the heap model. *)
From Verif Require Import Base SpecArray BaseFacts ModelQuickselect QuickselectFacts ModelHeap.
Require Import ZifyNat.
Ltac Zify.zify_post_hook ::= Z.div_mod_to_equations.

Lemma parent_lt i : 0 < i -> parent_ i < i.
Proof. unfold parent_. intro. lia. Qed.
Lemma parent_left i : parent_ (left_ i) = i.
Proof. unfold parent_, left_. lia. Qed.
Lemma parent_right i : parent_ (right_ i) = i.
Proof. unfold parent_, right_. lia. Qed.
Lemma parent_inv i j : 0 < j -> parent_ j = i -> j = left_ i \/ j = right_ i.
Proof. unfold parent_, left_, right_. intros. lia. Qed.
Lemma parent_0 : parent_ 0 = 0.
Proof. reflexivity. Qed.

Section HF.
Context {K V : Type}.
Variable ltb : K -> K -> bool.
Hypothesis Hsw : strict_weak ltb.
Notation node := (K * V)%type.

(** [geq h i j]: the entry at [i] is not smaller than the one at [j]. *)
Definition geq (h : list node) (i j : nat) : Prop :=
  forall x y, nth_error h i = Some x -> nth_error h j = Some y -> node_lt ltb x y = false.

Definition heap_ok (h : list node) : Prop :=
  forall i, 0 < i < length h -> geq h (parent_ i) i.

Lemma node_asym x y : node_lt ltb x y = true -> node_lt (V := V) ltb y x = false.
Proof. apply Hsw. Qed.
Lemma node_refl (x : node) : node_lt ltb x x = false.
Proof. unfold node_lt. apply asym_irrefl. apply Hsw. Qed.
Lemma node_trans (x y z : node) : node_lt ltb x y = false -> node_lt ltb y z = false -> node_lt ltb x z = false.
Proof. apply Hsw. Qed.

Lemma geq_refl h i : geq h i i.
Proof. intros x y Hx Hy. rewrite Hx in Hy. injection Hy as <-. apply node_refl. Qed.

Lemma geq_trans h i j k : j < length h -> geq h i j -> geq h j k -> geq h i k.
Proof.
  intros Hj H1 H2 x z Hx Hz. destruct (nth_error_ex h j Hj) as [y Hy].
  apply (node_trans x y z); [apply H1 | apply H2]; auto.
Qed.

Lemma heap_root h i : heap_ok h -> i < length h -> geq h 0 i.
Proof.
  intros Hh. induction i as [i IH] using (well_founded_induction lt_wf). intro Hi.
  destruct (Nat.eq_dec i 0) as [->|Hne]; [apply geq_refl|].
  assert (Hp := parent_lt i ltac:(lia)).
  apply (geq_trans h 0 (parent_ i) i); [lia| |].
  - apply IH; lia.
  - apply Hh. lia.
Qed.

(** ** Bubbling up *)
Definition up_inv (h : list node) (c : nat) : Prop :=
  (forall i, 0 < i < length h -> i <> c -> geq h (parent_ i) i) /\
  (forall i, 0 < i < length h -> parent_ i = c -> 0 < c -> geq h (parent_ c) i).

Lemma moved_nth {X} f (l l' : list X) i : moved f l l' -> nth_error l' i = nth_error l (f i).
Proof. intros [_ H]. apply H. Qed.

Lemma transp_l i j : transp i j i = j.
Proof. unfold transp. rewrite Nat.eqb_refl. reflexivity. Qed.
Lemma transp_r i j : transp i j j = i.
Proof. unfold transp. destruct (Nat.eqb_spec j i); [congruence|]. rewrite Nat.eqb_refl. reflexivity. Qed.
Lemma transp_o i j n : n <> i -> n <> j -> transp i j n = n.
Proof. intros. unfold transp. destruct (Nat.eqb_spec n i), (Nat.eqb_spec n j); congruence. Qed.

Lemma geq_moved f h h' i j : moved f h h' -> geq h (f i) (f j) -> geq h' i j.
Proof.
  intros HM H x y Hx Hy. rewrite (moved_nth _ _ _ _ HM) in Hx. rewrite (moved_nth _ _ _ _ HM) in Hy. apply H; assumption.
Qed.

Lemma bubble_up_correct fuel :
  forall h c, c < length h -> c < fuel -> up_inv h c ->
  exists h', bubble_up ltb fuel h c = Ok h' /\ Permutation h h' /\ heap_ok h'.
Proof.
  induction fuel as [|fuel IH]; intros h c Hc Hf [Inv1 Inv2]; [lia|].
  cbn [bubble_up]. unfold fix_up.
  assert (Hp : parent_ c <= c).
  { destruct (Nat.eq_dec c 0) as [->|]; [rewrite parent_0; lia|]. assert (T := parent_lt c ltac:(lia)). lia. }
  destruct (rd_lt h (parent_ c) ltac:(lia)) as [p [Rp Ep]]. rewrite Rp.
  destruct (rd_lt h c Hc) as [x [Rx Ex]]. cbn [bind]. rewrite Rx. cbn [bind].
  destruct (node_lt ltb p x) eqn:L.
  - assert (Hc0 : 0 < c).
    { destruct (Nat.eq_dec c 0) as [->|]; [|lia]. rewrite parent_0 in Ep. rewrite Ep in Ex.
      injection Ex as <-. rewrite node_refl in L. discriminate. }
    assert (Hpl := parent_lt c Hc0).
    destruct (swap_ok h c (parent_ c) Hc ltac:(lia)) as [h1 [E1 M1]].
    rewrite E1. cbn [bind].
    destruct (Nat.eqb_spec (parent_ c) c) as [|_]; [lia|].
    assert (L1 : length h1 = length h) by apply M1.
    destruct (IH h1 (parent_ c) ltac:(lia) ltac:(lia)) as [h' [E' [P' O']]].
    + split.
      * intros i Hi Hne. apply (geq_moved _ _ _ _ _ M1).
        destruct (Nat.eq_dec i c) as [->|Hic].
        -- rewrite transp_r, transp_l. intros a b Ha Hb.
           rewrite Ex in Ha. rewrite Ep in Hb. injection Ha as <-. injection Hb as <-. apply node_asym, L.
        -- rewrite (transp_o c (parent_ c) i) by lia.
           destruct (Nat.eq_dec (parent_ i) c) as [Hpc|Hpc].
           ++ rewrite Hpc, transp_l. apply Inv2; auto; lia.
           ++ destruct (Nat.eq_dec (parent_ i) (parent_ c)) as [Hpp|Hpp].
              ** rewrite Hpp, transp_r. apply (geq_trans h c (parent_ c) i); [lia| |].
                 --- intros a b Ha Hb. rewrite Ex in Ha. rewrite Ep in Hb. injection Ha as <-. injection Hb as <-.
                     apply node_asym, L.
                 --- rewrite <- Hpp. apply Inv1; lia.
              ** rewrite transp_o by lia. apply Inv1; lia.
      * intros i Hi Hpi Hpos. apply (geq_moved _ _ _ _ _ M1).
        assert (Hpp := parent_lt (parent_ c) Hpos).
        rewrite (transp_o c (parent_ c) (parent_ (parent_ c))) by lia.
        destruct (Nat.eq_dec i c) as [->|Hic].
        -- rewrite transp_l. apply Inv1; lia.
        -- assert (Hil := parent_lt i ltac:(lia)).
           rewrite transp_o by lia. apply (geq_trans h _ (parent_ c) i); [lia| |].
           ++ apply Inv1; lia.
           ++ rewrite <- Hpi. apply Inv1; lia.
    + exists h'. split; [exact E'|]. split; [|exact O'].
      etransitivity; [|exact P'].
      apply (moved_permutation 0 (length h) (transp c (parent_ c))); [|lia|exact M1].
      apply transp_rearranges; lia.
  - cbn [bind]. rewrite Nat.eqb_refl. exists h. split; [reflexivity|]. split; [apply Permutation_refl|].
    intros i Hi. destruct (Nat.eq_dec i c) as [->|Hic]; [|apply Inv1; lia].
    intros a b Ha Hb. rewrite Ep in Ha. rewrite Ex in Hb. injection Ha as <-. injection Hb as <-. exact L.
Qed.

Lemma heap_add_correct h k v :
  heap_ok h ->
  exists h', heap_add ltb h k v = Ok h' /\ Permutation ((k, v) :: h) h' /\ heap_ok h'.
Proof.
  intro Hh. unfold heap_add.
  assert (HL : length (h ++ [(k, v)]) = S (length h)) by (rewrite app_length; simpl; lia).
  destruct (bubble_up_correct (length (h ++ [(k, v)])) (h ++ [(k, v)]) (length (h ++ [(k, v)]) - 1))
    as [h' [E [P O]]]; try lia.
  - rewrite HL. split.
    + intros i Hi Hne x y Hx Hy.
      assert (Hil := parent_lt i ltac:(lia)).
      rewrite nth_error_app1 in Hx by lia. rewrite nth_error_app1 in Hy by lia.
      apply (Hh i); auto. lia.
    + intros i Hi Hpi. assert (Hil := parent_lt i ltac:(lia)). lia.
  - exists h'. split; [exact E|]. split; [|exact O].
    etransitivity; [|exact P]. apply Permutation_cons_append.
Qed.

(** ** Bubbling down *)
Definition down_inv (h : list node) (c : nat) : Prop :=
  (forall i, 0 < i < length h -> parent_ i <> c -> geq h (parent_ i) i) /\
  (forall i, 0 < i < length h -> parent_ i = c -> 0 < c -> geq h (parent_ c) i).

(** What [get_local_max] returns. *)
Lemma get_local_max_correct h c :
  c < length h \/ h = [] ->
  exists m, get_local_max ltb h c = Ok m /\
   ((m = c /\ forall i, 0 < i < length h -> parent_ i = c -> geq h c i) \/
    (c < m < length h /\ parent_ m = c /\
     (forall x y, nth_error h c = Some x -> nth_error h m = Some y -> node_lt ltb x y = true) /\
     (forall i, 0 < i < length h -> parent_ i = c -> geq h m i))).
Proof.
  intro Hc. unfold get_local_max.
  destruct (Nat.leb_spec (length h) (left_ c)) as [Hl|Hl].
  - exists c. split; [reflexivity|]. left. split; [reflexivity|].
    intros i Hi Hp. apply parent_inv in Hp; [|lia]. unfold left_, right_ in *. lia.
  - assert (Hc' : c < length h) by (unfold left_ in Hl; lia).
    destruct (rd_lt h c Hc') as [x [Rx Ex]].
    destruct (rd_lt h (left_ c) Hl) as [l [Rl El]].
    destruct (Nat.leb_spec (length h) (right_ c)) as [Hr|Hr].
    + rewrite Rx. cbn [bind]. rewrite Rl. cbn [bind].
      assert (OnlyL : forall i, 0 < i < length h -> parent_ i = c -> i = left_ c).
      { intros i Hi Hp. apply parent_inv in Hp; [|lia]. destruct Hp; lia. }
      destruct (node_lt ltb x l) eqn:L.
      * exists (left_ c). split; [reflexivity|]. right. split; [unfold left_ in *; lia|].
        split; [apply parent_left|]. split.
        -- intros a b Ha Hb. congruence.
        -- intros i Hi Hp. rewrite (OnlyL i Hi Hp). apply geq_refl.
      * exists c. split; [reflexivity|]. left. split; [reflexivity|].
        intros i Hi Hp. rewrite (OnlyL i Hi Hp). intros a b Ha Hb. congruence.
    + destruct (rd_lt h (right_ c) Hr) as [r [Rr Er]].
      rewrite Rl. cbn [bind]. rewrite Rr. cbn [bind]. rewrite Rx. cbn [bind].
      pose (m := if node_lt ltb l r then right_ c else left_ c). fold m.
      assert (Hm : (m = left_ c \/ m = right_ c) /\ geq h m (left_ c) /\ geq h m (right_ c)).
      { unfold m. destruct (node_lt ltb l r) eqn:L; (split; [auto|]); split; intros a b Ha Hb.
        - rewrite Er in Ha. rewrite El in Hb. injection Ha as <-. injection Hb as <-. apply node_asym, L.
        - rewrite Er in Ha. rewrite Er in Hb. injection Ha as <-. injection Hb as <-. apply node_refl.
        - rewrite El in Ha. rewrite El in Hb. injection Ha as <-. injection Hb as <-. apply node_refl.
        - congruence. }
      destruct Hm as [Hm1 [Hm2 Hm3]].
      assert (Hml : c < m < length h) by (unfold left_, right_ in *; lia).
      assert (Hpm : parent_ m = c) by (destruct Hm1 as [->| ->]; [apply parent_left | apply parent_right]).
      assert (All : forall i, 0 < i < length h -> parent_ i = c -> geq h m i).
      { intros i Hi Hp. apply parent_inv in Hp; [|lia]. destruct Hp as [->| ->]; assumption. }
      clearbody m.
      destruct (rd_lt h m ltac:(lia)) as [xm [Rm Em]]. rewrite Rm. cbn [bind].
      destruct (node_lt ltb x xm) eqn:L.
      * exists m. split; [reflexivity|]. right. split; [exact Hml|]. split; [exact Hpm|].
        split; [|exact All]. intros a b Ha Hb. congruence.
      * exists c. split; [reflexivity|]. left. split; [reflexivity|].
        intros i Hi Hp. apply (geq_trans h c m i); [lia| |apply All; auto].
        intros a b Ha Hb. congruence.
Qed.

Lemma bubble_down_correct fuel :
  forall h c, (c < length h \/ (h = [] /\ c = 0)) -> length h - c < fuel -> down_inv h c ->
  exists h', bubble_down ltb fuel h c = Ok h' /\ Permutation h h' /\ heap_ok h'.
Proof.
  induction fuel as [|fuel IH]; intros h c Hc Hf [Inv1 Inv2]; [lia|].
  cbn [bubble_down]. unfold fix_down.
  destruct (get_local_max_correct h c) as [m [Em Hm]]; [tauto|]. rewrite Em. cbn [bind].
  destruct Hm as [[-> Hm]|[Hcm [Hpm [Hlt Hall]]]].
  - destruct (Nat.ltb_spec c c); [lia|]. cbn [bind]. rewrite Nat.eqb_refl.
    exists h. split; [reflexivity|]. split; [apply Permutation_refl|].
    intros i Hi. destruct (Nat.eq_dec (parent_ i) c) as [Hp|Hp].
    + rewrite Hp. apply Hm; auto.
    + apply Inv1; auto.
  - destruct (Nat.ltb_spec c m) as [_|]; [|lia].
    destruct (swap_ok h c m ltac:(lia) ltac:(lia)) as [h1 [E1 M1]].
    rewrite E1. cbn [bind]. destruct (Nat.eqb_spec c m) as [|_]; [lia|].
    assert (L1 : length h1 = length h) by apply M1.
    destruct (nth_error_ex h c ltac:(lia)) as [x Ex].
    destruct (nth_error_ex h m ltac:(lia)) as [y Ey].
    assert (Gmc : geq h m c).
    { intros a b Ha Hb. apply node_asym. apply Hlt; assumption. }
    destruct (IH h1 m ltac:(lia) ltac:(lia)) as [h' [E' [P' O']]].
    + split.
      * intros i Hi Hne. apply (geq_moved _ _ _ _ _ M1).
        destruct (Nat.eq_dec i m) as [->|Him].
        -- rewrite Hpm, transp_l, transp_r. exact Gmc.
        -- destruct (Nat.eq_dec (parent_ i) c) as [Hpc|Hpc].
           ++ rewrite Hpc, transp_l. rewrite transp_o; [apply Hall; auto; lia| |lia].
              assert (T := parent_lt i ltac:(lia)). lia.
           ++ rewrite (transp_o c m (parent_ i)) by lia.
              destruct (Nat.eq_dec i c) as [->|Hic].
              ** rewrite transp_l. apply Inv2; lia.
              ** rewrite transp_o by lia. apply Inv1; lia.
      * intros i Hi Hpi Hpos. apply (geq_moved _ _ _ _ _ M1).
        rewrite Hpm, transp_l.
        assert (T := parent_lt i ltac:(lia)).
        rewrite transp_o by lia. rewrite <- Hpi. apply Inv1; lia.
    + exists h'. split; [exact E'|]. split; [|exact O'].
      etransitivity; [|exact P'].
      apply (moved_permutation 0 (length h) (transp c m)); [|lia|exact M1].
      apply transp_rearranges; lia.
Qed.

Lemma list_eq_nil_dec {X} (l : list X) : {l = []} + {l <> []}.
Proof. destruct l; [left; reflexivity | right; discriminate]. Qed.

Lemma nth_error_removelast {X} (l : list X) i :
  nth_error (removelast l) i = if i <? length l - 1 then nth_error l i else None.
Proof.
  rewrite removelast_firstn_len. rewrite nth_error_firstn'.
  replace (Nat.pred (length l)) with (length l - 1) by lia. reflexivity.
Qed.

Lemma heap_pop_correct h n t :
  h = n :: t -> heap_ok h ->
  exists h', heap_pop ltb h = Ok (Some n, h') /\ Permutation t h' /\ heap_ok h'.
Proof.
  intros -> Hh. unfold heap_pop.
  remember (n :: t) as h eqn:N0.
  assert (Hlen : length h = S (length t)) by (subst h; reflexivity).
  destruct (rd_lt h (length h - 1) ltac:(lia)) as [last [Rl El]]. rewrite Rl. cbn [bind].
  destruct (wr_ok h 0 last ltac:(lia)) as [h1 [W1 [L1 N1]]]. rewrite W1. cbn [bind].
  assert (Hrl : length (removelast h1) = length t).
  { rewrite removelast_firstn_len, firstn_length. lia. }
  assert (Ht : Permutation t (removelast h1)).
  { destruct h1 as [|a h1]; [simpl in L1; lia|].
    assert (Ha : a = last). { specialize (N1 0). simpl in N1. congruence. }
    assert (Hh1 : h1 = t).
    { apply list_nth_ext; [simpl in L1; lia|]. intros i Hi. specialize (N1 (S i)). rewrite N0 in N1. simpl in N1. exact N1. }
    subst a h1. destruct (list_eq_nil_dec t) as [->|Hne]; [constructor|].
    destruct (exists_last Hne) as [t0 [z Ez]]. subst t.
    assert (Hz : last = z).
    { rewrite Hlen in El. rewrite N0 in El.
      replace (S (length (t0 ++ [z])) - 1) with (S (length t0)) in El by (rewrite app_length; simpl; lia).
      cbn [nth_error] in El. rewrite nth_error_app2, Nat.sub_diag in El by lia. simpl in El. congruence. }
    subst z. change (last :: t0 ++ [last]) with ((last :: t0) ++ [last]).
    rewrite removelast_last. symmetry. apply Permutation_cons_append. }
  destruct (bubble_down_correct (S (length (removelast h1))) (removelast h1) 0) as [h3 [E3 [P3 O3]]].
  - destruct t as [|b t']; [right|left; rewrite Hrl; simpl; lia].
    split; [|reflexivity]. destruct (removelast h1); [reflexivity|simpl in Hrl; lia].
  - lia.
  - split.
    + intros i Hi Hpi x y Hx Hy. rewrite nth_error_removelast in Hx. rewrite nth_error_removelast in Hy.
      assert (T := parent_lt i ltac:(lia)).
      destruct (Nat.ltb_spec (parent_ i) (length h1 - 1)); [|discriminate].
      destruct (Nat.ltb_spec i (length h1 - 1)); [|discriminate].
      rewrite N1 in Hx. rewrite N1 in Hy.
      destruct (Nat.eqb_spec (parent_ i) 0); [lia|]. destruct (Nat.eqb_spec i 0); [lia|].
      apply (Hh i); [lia|assumption|assumption].
    + intros i Hi Hpi Habs. lia.
  - rewrite E3. cbn [bind]. exists h3. split; [reflexivity|]. split; [|exact O3].
    etransitivity; eauto.
Qed.

Lemma heap_ok_nil : heap_ok [].
Proof. intros i Hi. simpl in Hi. lia. Qed.

Lemma heap_top_max h n : heap_ok h -> heap_top h = Some n -> In n h /\ forall m, In m h -> node_lt ltb n m = false.
Proof.
  intros Hh Ht. destruct h as [|n0 t]; [discriminate|]. simpl in Ht. injection Ht as ->.
  split; [left; reflexivity|]. intros m Hm. apply In_nth_error in Hm. destruct Hm as [i Hi].
  apply (heap_root (n :: t) i Hh); [eapply nth_error_lt; eauto|reflexivity|exact Hi].
Qed.

End HF.
