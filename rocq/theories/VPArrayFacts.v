(** The arrays under a vp-tree: one build step. *)
From Verif Require Import Base SpecArray BaseFacts ModelQuickselect QuickselectFacts QuickselectProp
  ModelHeap ModelVPTree SpecVPTree.

(** [l'] agrees with [l] outside [[s, e)]. *)
Definition same_out {X} (s e : nat) (l l' : list X) : Prop :=
  length l' = length l /\ forall i, ~ (s <= i < e) -> nth_error l' i = nth_error l i.
Definition same_in {X} (s e : nat) (l l' : list X) : Prop :=
  forall i, s <= i < e -> nth_error l' i = nth_error l i.

Lemma same_out_refl {X} s e (l : list X) : same_out s e l l.
Proof. split; auto. Qed.
Lemma same_out_trans {X} s e (l1 l2 l3 : list X) :
  same_out s e l1 l2 -> same_out s e l2 l3 -> same_out s e l1 l3.
Proof. intros [H1 H2] [H3 H4]. split; [congruence|]. intros i Hi. rewrite H4, H2; auto. Qed.
Lemma same_out_widen {X} s e s' e' (l l' : list X) :
  s <= s' -> e' <= e -> same_out s' e' l l' -> same_out s e l l'.
Proof. intros Hs He [H1 H2]. split; auto. intros i Hi. apply H2. lia. Qed.
Lemma moved_same_out {X} s e f (l l' : list X) :
  rearranges s e f -> moved f l l' -> same_out s e l l'.
Proof. intros [_ [_ H3]] [H4 H5]. split; auto. intros i Hi. rewrite H5, H3; auto. Qed.

Lemma slice_ext {X} s e (l l' : list X) :
  (forall i, s <= i < e -> nth_error l' i = nth_error l i) -> e <= length l -> e <= length l' ->
  slice l' s e = slice l s e.
Proof.
  intros H H1 H2. apply list_nth_ext.
  - rewrite !slice_length; auto.
  - intros i Hi. rewrite slice_length in Hi by auto. rewrite !nth_error_slice.
    destruct (Nat.ltb_spec (s + i) e); auto. apply H. lia.
Qed.

Lemma In_slice {X} (l : list X) s e x :
  In x (slice l s e) <-> exists i, s <= i < e /\ nth_error l i = Some x.
Proof.
  split.
  - intro H. apply In_nth_error in H as [i Hi]. rewrite nth_error_slice in Hi.
    destruct (Nat.ltb_spec (s + i) e); [|discriminate]. exists (s + i). split; [lia|exact Hi].
  - intros [i [Hi Hx]]. apply (nth_error_In _ (i - s)). rewrite nth_error_slice.
    replace (s + (i - s)) with i by lia. destruct (Nat.ltb_spec i e); [exact Hx|lia].
Qed.

Lemma slice_incl {X} (l : list X) s e : incl (slice l s e) l.
Proof. intros x H. apply In_slice in H as [i [_ H]]. eapply nth_error_In; eauto. Qed.

Section VPArray.
Context {T D : Type}.
Variable metric : T -> T -> D.
Variables leb ltb : D -> D -> bool.
Variable gap : D -> D -> D.
Variable zero : D.
Variable par : vparams D.
Variable dataset : list T.
Hypothesis Hord : order_ok leb ltb gap.
Notation varr := (qstate D nat bool).

Lemma ltb_strict_weak : strict_weak ltb.
Proof.
  destruct Hord as [Ht Htr Hl _]. split.
  - intros x y. rewrite !Hl. destruct (leb y x) eqn:E; simpl; [discriminate|].
    intros _. destruct (Ht x y) as [H|H]; [rewrite H; reflexivity|congruence].
  - intros x y z. rewrite !Hl. intros H1 H2.
    apply negb_false_iff in H1, H2. apply negb_false_iff. eauto.
Qed.

Lemma ltb_false a b : ltb a b = false <-> leb b a = true.
Proof. rewrite (ord_lt _ _ _ Hord). apply negb_false_iff. Qed.
Lemma ltb_true a b : ltb a b = true <-> leb b a = false.
Proof. rewrite (ord_lt _ _ _ Hord). apply negb_true_iff. Qed.
Lemma leb_refl a : leb a a = true.
Proof. destruct (ord_total _ _ _ Hord a a); auto. Qed.
Lemma leb_false_le a b : leb a b = false -> leb b a = true.
Proof. intro H. destruct (ord_total _ _ _ Hord a b); congruence. Qed.

(** Array contents: distances, points, flags. *)
Definition holds (st : varr) (ds : list D) (ps : list T) (ts : option (list bool)) : Prop :=
  qdata st = ds /\ qextra2 st = ts /\
  (exists idx, qextra1 st = Some idx /\
     Forall2 (fun ix p => nth_error dataset ix = Some p) idx ps) /\
  length ds = length ps /\ (forall l, ts = Some l -> length l = length ps).

Lemma Forall2_nth_l {A B} (R : A -> B -> Prop) l l' i y :
  Forall2 R l l' -> nth_error l' i = Some y -> exists x, nth_error l i = Some x /\ R x y.
Proof.
  intro H; revert i; induction H as [|a b l l' Hab H IH]; intros [|i] Hi; simpl in *; try discriminate.
  - injection Hi as <-. eauto.
  - apply IH, Hi.
Qed.

Lemma Forall2_len {A B} (R : A -> B -> Prop) l l' : Forall2 R l l' -> length l = length l'.
Proof. induction 1; simpl; auto. Qed.

Lemma get_point_ok st ds ps ts i p :
  holds st ds ps ts -> nth_error ps i = Some p -> get_point dataset st i = Ok p.
Proof.
  intros [_ [_ [[idx [E1 E2]] _]]] Hi. unfold get_point, get_index. rewrite E1.
  destruct (Forall2_nth_l _ _ _ _ _ E2 Hi) as [ix [H1 H2]].
  apply rd_ok in H1. rewrite H1. cbn [bind]. apply rd_ok. exact H2.
Qed.

Lemma Forall2_skipn {A B} (R : A -> B -> Prop) n l l' :
  Forall2 R l l' -> Forall2 R (skipn n l) (skipn n l').
Proof. intro H; revert n; induction H; intros [|n]; simpl; auto. Qed.
Lemma Forall2_firstn {A B} (R : A -> B -> Prop) n l l' :
  Forall2 R l l' -> Forall2 R (firstn n l) (firstn n l').
Proof. intro H; revert n; induction H; intros [|n]; simpl; auto. Qed.

Lemma get_points_ok st ds ps ts s e :
  holds st ds ps ts -> get_points dataset st s e = Ok (slice ps s e).
Proof.
  intros [_ [_ [[idx [E1 E2]] _]]]. unfold get_points. rewrite E1.
  assert (F : Forall2 (fun ix p => nth_error dataset ix = Some p) (slice idx s e) (slice ps s e))
    by (apply Forall2_firstn, Forall2_skipn, E2).
  induction F as [|ix p l l' H F IH]; simpl; auto.
  apply rd_ok in H. rewrite H. cbn [bind]. rewrite IH. reflexivity.
Qed.

Lemma get_distance_ok st ds ps ts i d :
  holds st ds ps ts -> nth_error ds i = Some d -> get_distance st i = Ok d.
Proof. intros [E _] H. unfold get_distance. rewrite E. apply rd_ok, H. Qed.

Lemma is_terminal_ok st ds ps ts i b :
  holds st ds ps (Some ts) -> nth_error ts i = Some b -> is_terminal st i = Ok b.
Proof. intros [_ [E _]] H. unfold is_terminal. rewrite E. apply rd_ok, H. Qed.

Definition upd {X} (l : list X) (i : nat) (x : X) : list X := firstn i l ++ x :: skipn (S i) l.

Lemma upd_len {X} (l : list X) i x : i < length l -> length (upd l i x) = length l.
Proof.
  intro H. unfold upd. rewrite app_length, firstn_length. cbn [length]. rewrite skipn_length. lia.
Qed.
Lemma upd_nth {X} (l : list X) i x j : i < length l ->
  nth_error (upd l i x) j = if j =? i then Some x else nth_error l j.
Proof. apply nth_error_wr. Qed.
Lemma upd_out {X} (l : list X) s e i x : i < length l -> s <= i < e -> same_out s e l (upd l i x).
Proof.
  intros H H1. split; [apply upd_len, H|]. intros j Hj. rewrite upd_nth by auto.
  destruct (Nat.eqb_spec j i); auto; lia.
Qed.

Lemma set_distance_ok st ds ps ts i d :
  holds st ds ps ts -> i < length ps ->
  exists st', set_distance st i d = Ok st' /\ holds st' (upd ds i d) ps ts.
Proof.
  intros [E [E2 [E3 [E4 E5]]]] H. unfold set_distance, wr. rewrite E.
  destruct (Nat.ltb_spec i (length ds)); [|lia]. cbn [bind].
  eexists. split; [reflexivity|]. split; [reflexivity|]. simpl. split; auto. split; auto. split; auto.
  rewrite upd_len; auto.
Qed.

Lemma set_terminal_ok st ds ps ts i b :
  holds st ds ps (Some ts) -> i < length ps ->
  exists st', set_terminal st i b = Ok st' /\ holds st' ds ps (Some (upd ts i b)).
Proof.
  intros [E [E2 [E3 [E4 E5]]]] H. unfold set_terminal, wr. rewrite E2.
  specialize (E5 ts eq_refl).
  destruct (Nat.ltb_spec i (length ts)); [|lia]. cbn [bind].
  eexists. split; [reflexivity|]. split; [exact E|]. simpl. split; auto. split; auto. split; auto.
  intros l Hl. injection Hl as <-. rewrite upd_len; auto.
Qed.

(** Rearranging all arrays rearranges the points. *)
Lemma moved_points f idx idx' ps n :
  Forall2 (fun ix p => nth_error dataset ix = Some p) idx ps ->
  rearranges 0 n f -> n <= length idx -> moved f idx idx' ->
  exists ps', moved f ps ps' /\ Forall2 (fun ix p => nth_error dataset ix = Some p) idx' ps'.
Proof.
  intros F HR Hn M.
  assert (Hp : forall ix, In ix idx' -> exists p, nth_error dataset ix = Some p).
  { intros ix Hix. assert (HP := moved_permutation 0 n f idx idx' HR Hn M).
    apply (Permutation_in _ (Permutation_sym HP)) in Hix.
    clear - F Hix. induction F; simpl in *; [tauto|]. destruct Hix as [->|Hix]; eauto. }
  assert (HE : exists ps', Forall2 (fun ix p => nth_error dataset ix = Some p) idx' ps').
  { clear - Hp. induction idx' as [|ix l IH]; [exists []; constructor|].
    destruct (Hp ix) as [p Hpx]; [left; reflexivity|].
    destruct IH as [ps' H]; [intros; apply Hp; right; auto|]. exists (p :: ps'). constructor; auto. }
  destruct HE as [ps' F']. exists ps'. split; auto.
  destruct M as [Ml Mn].
  assert (L : length ps' = length ps).
  { rewrite <- (Forall2_len _ _ _ F'), <- (Forall2_len _ _ _ F). exact Ml. }
  split; [exact L|]. intro i.
  destruct (nth_error ps' i) as [p|] eqn:E.
  - destruct (Forall2_nth_l _ _ _ _ _ F' E) as [ix [H1 H2]]. rewrite Mn in H1.
    assert (Hlt : f i < length ps) by (rewrite <- (Forall2_len _ _ _ F); eapply nth_error_lt; eauto).
    destruct (nth_error_ex ps (f i) Hlt) as [p' Hp'].
    destruct (Forall2_nth_l _ _ _ _ _ F Hp') as [ix' [H3 H4]]. congruence.
  - apply nth_error_None in E. symmetry. apply nth_error_None.
    assert (H : nth_error idx' i = None)
      by (apply nth_error_None; rewrite (Forall2_len _ _ _ F'); exact E).
    rewrite Mn in H. apply nth_error_None in H. rewrite <- (Forall2_len _ _ _ F). exact H.
Qed.

Lemma holds_moved st ds ps ts st' f s e :
  holds st ds ps ts -> e <= length ps -> rearranges s e f -> movedq f st st' ->
  exists ds' ps' ts', holds st' ds' ps' ts' /\ moved f ds ds' /\ moved f ps ps' /\ moved_opt f ts ts'.
Proof.
  intros [E [E2 [[idx [E3 E3']] [E4 E5]]]] He HR [M1 [M2 M3]].
  destruct st as [d e1 e2], st' as [d' e1' e2']. simpl in *. subst.
  destruct e1' as [idx'|]; simpl in M2; [|tauto].
  assert (HR0 : rearranges 0 (length ps) f) by (apply (rearranges_widen 0 (length ps) s e f); [lia|exact He|exact HR]).
  destruct (moved_points f idx idx' ps (length ps) E3' HR0) as [ps' [Mp Fp]]; auto.
  { rewrite (Forall2_len _ _ _ E3'). auto. }
  exists d', ps', e2'. split.
  - split; [reflexivity|]. split; [reflexivity|]. split; [exists idx'; split; [reflexivity|exact Fp]|].
    apply proj1 in M1. apply proj1 in Mp. split; [congruence|].
    intros l Hl. subst e2'. destruct ts as [l0|]; simpl in M3; [|tauto].
    apply proj1 in M3. rewrite M3, Mp. auto.
  - auto.
Qed.

(** Contents after rearranging within [[s, e)] and overwriting distances and
    flags there. *)
Definition touched (s e : nat) (ds : list D) (ps : list T) (ts : option (list bool))
    (ds' : list D) (ps' : list T) (ts' : option (list bool)) : Prop :=
  same_out s e ds ds' /\ same_out s e ps ps' /\ Permutation (slice ps s e) (slice ps' s e) /\
  match ts, ts' with
  | Some l, Some l' => same_out s e l l'
  | None, None => True
  | _, _ => False
  end.

Lemma touched_refl s e ds ps ts : touched s e ds ps ts ds ps ts.
Proof.
  split; [apply same_out_refl|]. split; [apply same_out_refl|]. split; [apply Permutation_refl|].
  destruct ts; auto using same_out_refl.
Qed.

Lemma touched_trans s e ds ps ts ds1 ps1 ts1 ds2 ps2 ts2 :
  touched s e ds ps ts ds1 ps1 ts1 -> touched s e ds1 ps1 ts1 ds2 ps2 ts2 ->
  touched s e ds ps ts ds2 ps2 ts2.
Proof.
  intros [A1 [A2 [A3 A4]]] [B1 [B2 [B3 B4]]].
  split; [eapply same_out_trans; eauto|]. split; [eapply same_out_trans; eauto|].
  split; [eapply Permutation_trans; eauto|].
  destruct ts, ts1, ts2; try tauto. eapply same_out_trans; eauto.
Qed.

Lemma slice_perm_widen {X} s e s' e' (l l' : list X) :
  s <= s' -> s' <= e' -> e' <= e -> e <= length l -> same_out s' e' l l' ->
  Permutation (slice l s' e') (slice l' s' e') -> Permutation (slice l s e) (slice l' s e).
Proof.
  intros H1 H2 H3 H4 [H5 H6] H7.
  rewrite (slice_split l s s' e) by lia. rewrite (slice_split l s' e' e) by lia.
  rewrite (slice_split l' s s' e) by lia. rewrite (slice_split l' s' e' e) by lia.
  rewrite (slice_ext s s' l l') by (try lia; intros; apply H6; lia).
  rewrite (slice_ext e' e l l') by (try lia; intros; apply H6; lia).
  apply Permutation_app_head, Permutation_app_tail, H7.
Qed.

Lemma touched_widen s e s' e' ds ps ts ds1 ps1 ts1 :
  s <= s' -> s' <= e' -> e' <= e -> e <= length ps ->
  touched s' e' ds ps ts ds1 ps1 ts1 -> touched s e ds ps ts ds1 ps1 ts1.
Proof.
  intros H1 H2 H3 H4 [A1 [A2 [A3 A4]]].
  split; [eapply same_out_widen; eauto|]. split; [eapply same_out_widen; eauto|].
  split; [eapply slice_perm_widen; eauto|].
  destruct ts, ts1; try tauto. eapply same_out_widen; eauto.
Qed.

Lemma holds_moved_touched st ds ps ts st' f s e :
  holds st ds ps ts -> e <= length ps -> rearranges s e f -> movedq f st st' ->
  exists ds' ps' ts', holds st' ds' ps' ts' /\ moved f ds ds' /\ moved f ps ps' /\
    touched s e ds ps ts ds' ps' ts'.
Proof.
  intros H He HR M. destruct (holds_moved st ds ps ts st' f s e H He HR M) as [ds' [ps' [ts' [H' [M1 [M2 M3]]]]]].
  exists ds', ps', ts'. split; [exact H'|]. split; [exact M1|]. split; [exact M2|].
  split; [eapply moved_same_out; eauto|]. split; [eapply moved_same_out; eauto|].
  split; [eapply moved_slice_perm; eauto|].
  destruct ts, ts'; simpl in M3; try tauto. eapply moved_same_out; eauto.
Qed.

Lemma holds_fits st ds ps ts n : holds st ds ps ts -> n <= length ps -> fits st n.
Proof.
  intros [E [E2 [[idx [E3 E3']] [E4 E5]]]] Hn. split; [rewrite E; lia|]. rewrite E2, E3. split; simpl.
  - rewrite (Forall2_len _ _ _ E3'). exact Hn.
  - destruct ts; simpl; auto. rewrite (E5 l eq_refl). exact Hn.
Qed.

Lemma swap_touched st ds ps ts s e i j :
  holds st ds ps ts -> e <= length ps -> s <= i < e -> s <= j < e ->
  exists st' ds' ps' ts', swap_all st i j = Ok st' /\ holds st' ds' ps' ts' /\
    touched s e ds ps ts ds' ps' ts'.
Proof.
  intros H He Hi Hj.
  destruct (swap_all_ok st e i j (holds_fits _ _ _ _ _ H He) ltac:(lia) ltac:(lia)) as [st' [E M]].
  destruct (holds_moved_touched st ds ps ts st' (transp i j) s e H He (transp_rearranges s e i j Hi Hj) M)
    as [ds' [ps' [ts' [H' [_ [_ HT]]]]]].
  exists st', ds', ps', ts'. auto.
Qed.

Lemma furthest_ok st ds ps ts s e i :
  holds st ds ps ts -> s < e -> e <= length ps -> s <= i < e ->
  exists j, furthest metric ltb zero dataset st s e i = Ok j /\ s <= j < e.
Proof.
  intros H Hse He Hi. unfold furthest.
  destruct (nth_error_ex ps i ltac:(lia)) as [pi Hpi].
  rewrite (get_point_ok st ds ps ts i pi H Hpi). cbn [bind].
  match goal with |- context [for_range ?n ?s0 ?b ?st0] =>
    destruct (for_range_inv b (fun j (acc : D * nat) => s <= snd acc < e) n s0 st0) as [r [E1 E2]] end.
  - simpl. lia.
  - intros j [fd far] Hj Hfar. simpl in Hfar.
    destruct (nth_error_ex ps j ltac:(lia)) as [pj Hpj].
    rewrite (get_point_ok st ds ps ts j pj H Hpj). cbn [bind].
    destruct (ltb fd (metric pi pj)); eexists; split; try reflexivity; simpl; lia.
  - rewrite E1. cbn [bind]. eauto.
Qed.

Lemma pivoting_ok c st ds ps ts s e :
  holds st ds ps ts -> s <= e <= length ps ->
  exists c' st' ds' ps' ts', pivoting_ metric ltb zero par dataset c st s e = Ok (c', st') /\
    holds st' ds' ps' ts' /\ touched s e ds ps ts ds' ps' ts'.
Proof.
  intros H Hse. unfold pivoting_.
  assert (R : forall x, s < e -> s <= randrange par x s e < e).
  { intros x Hx. unfold randrange. pose proof (Nat.mod_upper_bound (rng par x) (e - s)). lia. }
  destruct (pivot_kind par).
  - exists c, st, ds, ps, ts. auto using touched_refl.
  - destruct (Nat.leb_spec e s) as [L|L].
    + exists c, st, ds, ps, ts. auto using touched_refl.
    + destruct (Nat.ltb_spec s (randrange par c s e)) as [L2|L2].
      * destruct (swap_touched st ds ps ts s e s (randrange par c s e) H) as [st' [ds' [ps' [ts' [E [E1 E2]]]]]];
          try lia; [apply R; lia|].
        rewrite E. cbn [bind]. exists (S c), st', ds', ps', ts'. auto.
      * exists (S c), st, ds, ps, ts. auto using touched_refl.
  - destruct (Nat.leb_spec e s) as [L|L].
    + exists c, st, ds, ps, ts. auto using touched_refl.
    + destruct (furthest_ok st ds ps ts s e (randrange par c s e) H L ltac:(lia) (R c L)) as [j [E1 B1]].
      rewrite E1. cbn [bind].
      destruct (furthest_ok st ds ps ts s e j H L ltac:(lia) B1) as [j2 [E2 B2]].
      rewrite E2. cbn [bind].
      destruct (Nat.ltb_spec s j2) as [L2|L2].
      * destruct (swap_touched st ds ps ts s e s j2 H) as [st' [ds' [ps' [ts' [E [E3 E4]]]]]]; try lia.
        rewrite E. cbn [bind]. exists (S c), st', ds', ps', ts'. auto.
      * exists (S c), st, ds, ps, ts. auto using touched_refl.
Qed.

(** The loop of [_update]. *)
Lemma update_loop_ok v flag st ds ps ts s e :
  holds st ds ps ts -> s <= e <= length ps ->
  (forall b, flag = Some b -> ts <> None) ->
  exists st' ds' ts', for_range (e - s) s (update_step metric dataset v flag) st = Ok st' /\
    holds st' ds' ps ts' /\ touched s e ds ps ts ds' ps ts' /\
    forall i x, s <= i < e -> nth_error ps i = Some x -> nth_error ds' i = Some (metric v x).
Proof.
  intros H Hse Hfl.
  destruct (for_range_inv (update_step metric dataset v flag)
    (fun j st' => exists ds' ts', holds st' ds' ps ts' /\ touched s e ds ps ts ds' ps ts' /\
       forall i x, s <= i < j -> nth_error ps i = Some x -> nth_error ds' i = Some (metric v x))
    (e - s) s st) as [st' [E1 [ds' [ts' [H1 [H2 H3]]]]]].
  - exists ds, ts. split; [exact H|]. split; [apply touched_refl|]. intros; lia.
  - intros j st0 Hj [ds0 [ts0 [H0 [T0 K0]]]]. unfold update_step.
    destruct (nth_error_ex ps j ltac:(lia)) as [pj Hpj].
    rewrite (get_point_ok st0 ds0 ps ts0 j pj H0 Hpj). cbn [bind].
    destruct (set_distance_ok st0 ds0 ps ts0 j (metric v pj) H0 ltac:(lia)) as [st1 [E1 H1]].
    rewrite E1. cbn [bind].
    assert (Ld : length ds0 = length ps) by apply H0.
    assert (T1 : touched s e ds ps ts (upd ds0 j (metric v pj)) ps ts0).
    { destruct T0 as [A1 [A2 [A3 A4]]]. split; auto.
      eapply same_out_trans; [exact A1|]. apply upd_out; lia. }
    assert (K1 : forall i x, s <= i < S j -> nth_error ps i = Some x ->
                 nth_error (upd ds0 j (metric v pj)) i = Some (metric v x)).
    { intros i x Hi Hx. rewrite upd_nth by lia. destruct (Nat.eqb_spec i j) as [->|Hne].
      - congruence.
      - apply K0; auto. lia. }
    destruct flag as [b|].
    + destruct ts0 as [l0|].
      * destruct (set_terminal_ok st1 _ ps l0 j b H1 ltac:(lia)) as [st2 [E2 H2]].
        exists st2. split; [exact E2|]. exists (upd ds0 j (metric v pj)), (Some (upd l0 j b)).
        split; [exact H2|]. split; [|exact K1].
        destruct T1 as [A1 [A2 [A3 A4]]]. split; auto. split; auto. split; auto.
        destruct ts; auto. eapply same_out_trans; [exact A4|]. apply upd_out; [|lia].
        destruct H1 as [_ [_ [_ [_ H1]]]]. rewrite (H1 l0 eq_refl). lia.
      * destruct T0 as [_ [_ [_ T0]]]. destruct ts; [tauto|]. exfalso. apply (Hfl b); auto.
    + exists st1. split; [reflexivity|]. exists (upd ds0 j (metric v pj)), ts0. auto.
  - exists st', ds', ts'. split; [exact E1|]. split; [exact H1|]. split; [exact H2|].
    intros i x Hi. apply H3. lia.
Qed.

Lemma quickselect_touched st ds ps ts s e k :
  holds st ds ps ts -> s <= e <= length ps ->
  exists st' ds' ps' ts' f, quickselect ltb st s e k = Ok st' /\ holds st' ds' ps' ts' /\
    touched s e ds ps ts ds' ps' ts' /\ rearranges s e f /\ moved f ds ds' /\ moved f ps ps' /\
    (s <= k < e -> exists pk, nth_error ds' k = Some pk /\
      on_range ds' s k (fun x => leb x pk = true) /\ on_range ds' k e (fun x => leb pk x = true)).
Proof.
  intros H Hse.
  assert (D0 : k < s \/ e <= k \/ s <= k < e) by lia.
  assert (Triv : k < s \/ e <= k -> exists st' ds' ps' ts' f, quickselect ltb st s e k = Ok st' /\ holds st' ds' ps' ts' /\
    touched s e ds ps ts ds' ps' ts' /\ rearranges s e f /\ moved f ds ds' /\ moved f ps ps' /\
    (s <= k < e -> exists pk, nth_error ds' k = Some pk /\
      on_range ds' s k (fun x => leb x pk = true) /\ on_range ds' k e (fun x => leb pk x = true))).
  { intro HK. exists st, ds, ps, ts, (fun i => i). rewrite quickselect_out by lia.
    split; [reflexivity|]. split; [exact H|]. split; [apply touched_refl|].
    split; [apply rearranges_id|]. split; [apply moved_id|]. split; [apply moved_id|]. lia. }
  destruct D0 as [D0|[D0|D0]]; [apply Triv; auto|apply Triv; auto|]. clear Triv.
  destruct ltb_strict_weak as [Has Hnt].
  destruct (quickselect_correct ltb st s e k Has D0 (holds_fits st ds ps ts e H (proj2 Hse)))
    as [st' [f [E [HR [M O]]]]].
  destruct (holds_moved_touched st ds ps ts st' f s e H ltac:(lia) HR M) as [ds' [ps' [ts' [H' [M1 [M2 HT]]]]]].
  exists st', ds', ps', ts', f. split; [exact E|]. split; [exact H'|]. split; [exact HT|].
  split; [exact HR|]. split; [exact M1|]. split; [exact M2|]. intros _.
  assert (Ed : qdata st' = ds') by apply H'.
  destruct (nth_error_ex ds' k) as [pk Hpk].
  { destruct M1 as [M1 _]. destruct H as [_ [_ [_ [H _]]]]. lia. }
  rewrite Ed in O. destruct (O Hnt pk Hpk) as [O1 O2].
  exists pk. split; [exact Hpk|]. split; intros i x Hi Hx; apply ltb_false.
  - apply (O1 i x Hi Hx).
  - apply (O2 i x Hi Hx).
Qed.

(** A build step on a range [s < e]: pivoting, update, partition. After it, [v]
    at [s], the median distance [r] at [mid], closer points before, others after. *)
Definition stepped (s e : nat) (ds : list D) (ps : list T) (r : D) (v : T) : Prop :=
  nth_error ps s = Some v /\ nth_error ds (mid_ s e) = Some r /\
  (s + 2 <= e ->
    Forall (fun x => leb (metric v x) r = true) (slice ps (S s) (mid_ s e)) /\
    Forall (fun x => leb r (metric v x) = true) (slice ps (mid_ s e) e) /\
    exists y, In y (slice ps (mid_ s e) e) /\ r = metric v y).

Lemma mid_bounds s e : s <= e -> s <= mid_ s e <= e.
Proof. intro H. unfold mid_. split; [apply Nat.div_le_lower_bound|apply Nat.div_le_upper_bound]; lia. Qed.
Lemma mid_bounds1 s e : s < e -> mid_ s e < e.
Proof. intro H. unfold mid_. apply Nat.div_lt_upper_bound; lia. Qed.
Lemma mid_bounds2 s e : s + 2 <= e -> S s <= mid_ s e.
Proof. intro H. unfold mid_. apply Nat.div_le_lower_bound; lia. Qed.
Lemma mid_bounds3 s e : s + 4 <= e -> S s < mid_ s e.
Proof. intro H. unfold mid_. apply Nat.div_le_lower_bound; lia. Qed.

Lemma step_correct st ds ps ts s e v flag :
  holds st ds ps ts -> s < e <= length ps ->
  (forall b, flag = Some b -> ts <> None) ->
  nth_error ps s = Some v ->
  exists st1 st2 ds2 ps2 ts2 r,
    for_range (e - S s) (S s) (update_step metric dataset v flag) st = Ok st1 /\
    quickselect ltb st1 (S s) e (mid_ s e) = Ok st2 /\
    get_distance st2 (mid_ s e) = Ok r /\
    (exists ds1 ts1, holds st1 ds1 ps ts1) /\
    holds st2 ds2 ps2 ts2 /\ touched s e ds ps ts ds2 ps2 ts2 /\ stepped s e ds2 ps2 r v.
Proof.
  intros H Hse Hfl Hv.
  destruct (update_loop_ok v flag st ds ps ts (S s) e H ltac:(lia) Hfl) as [st1 [ds1 [ts1 [E1 [H1 [T1 K1]]]]]].
  destruct (quickselect_touched st1 ds1 ps ts1 (S s) e (mid_ s e) H1 ltac:(lia))
    as [st2 [ds2 [ps2 [ts2 [f [E2 [H2 [T2 [HR [M1 [M2 O]]]]]]]]]]].
  assert (Lp : length ps2 = length ps) by apply M2.
  assert (Ld : length ds2 = length ps2) by apply H2.
  pose proof (mid_bounds s e ltac:(lia)) as B0. pose proof (mid_bounds1 s e ltac:(lia)) as B1.
  destruct (nth_error_ex ds2 (mid_ s e) ltac:(lia)) as [r Hr].
  exists st1, st2, ds2, ps2, ts2, r.
  split; [exact E1|]. split; [exact E2|]. split; [eapply get_distance_ok; eauto|].
  split; [eauto|]. split; [exact H2|].
  split.
  { apply (touched_widen s e (S s) e); try lia. eapply touched_trans; [exact T1|exact T2]. }
  assert (KD : forall i x, S s <= i < e -> nth_error ps2 i = Some x -> nth_error ds2 i = Some (metric v x)).
  { intros i x Hi Hx. destruct M1 as [_ M1], M2 as [_ M2]. rewrite M2 in Hx. rewrite M1.
    destruct HR as [HR _]. apply K1; auto. }
  split; [|split].
  - destruct M2 as [_ M2]. rewrite M2. destruct HR as [_ [_ HR]]. rewrite HR by lia. exact Hv.
  - exact Hr.
  - intro Hs2. pose proof (mid_bounds2 s e Hs2) as B2.
    destruct O as [pk [P1 [P2 P3]]]; [lia|]. rewrite Hr in P1. injection P1 as <-.
    split; [|split].
    + apply Forall_forall. intros x Hx. apply In_slice in Hx as [i [Hi Hx]].
      apply (P2 i); [lia|]. apply KD; [lia|exact Hx].
    + apply Forall_forall. intros x Hx. apply In_slice in Hx as [i [Hi Hx]].
      apply (P3 i); [lia|]. apply KD; [lia|exact Hx].
    + destruct (nth_error_ex ps2 (mid_ s e) ltac:(lia)) as [y Hy]. exists y. split.
      * apply In_slice. exists (mid_ s e). split; [lia|exact Hy].
      * assert (X := KD (mid_ s e) y ltac:(lia) Hy). congruence.
Qed.
End VPArray.
