(** How often the metric is called. *)
From Verif Require Import Base SpecArray BaseFacts ModelQuickselect ModelHeap ModelVPTree SpecVPTree
  VPArrayFacts VPBuildFacts ModelCalls CallsFacts.

(** The halves of a range. *)
Lemma mid_halves s e : s + 2 <= e -> mid_ s e - S s = (e - s) / 2 - 1 /\ e - mid_ s e = (e - s) - (e - s) / 2.
Proof.
  intro H. unfold mid_.
  replace (s + e) with ((e - s) + s * 2) by lia. rewrite Nat.div_add by lia.
  pose proof (Nat.div_mod (e - s) 2 ltac:(lia)). pose proof (Nat.mod_upper_bound (e - s) 2 ltac:(lia)). lia.
Qed.

Lemma log2_up_half n : 2 <= n -> S (Nat.log2_up (n - n / 2)) <= Nat.log2_up n.
Proof.
  intro H. assert (P : 0 < Nat.log2_up n) by (apply Nat.log2_up_pos; lia).
  assert (Q : n <= 2 ^ Nat.log2_up n) by (apply Nat.log2_up_le_pow2; lia).
  destruct (Nat.log2_up n) as [|k]; [lia|]. apply le_n_S.
  pose proof (Nat.div_mod n 2 ltac:(lia)). pose proof (Nat.mod_upper_bound n 2 ltac:(lia)).
  apply Nat.log2_up_le_pow2; [lia|]. simpl in Q. lia.
Qed.

Lemma log2_up_half' n : 2 <= n -> Nat.log2_up (n / 2 - 1) <= Nat.log2_up (n - n / 2).
Proof.
  intro H. apply Nat.log2_up_le_mono.
  pose proof (Nat.div_mod n 2 ltac:(lia)). pose proof (Nat.mod_upper_bound n 2 ltac:(lia)). lia.
Qed.

Section Cost.
Context {T D : Type}.
Variable ev : T -> T -> res D.
Variables leb ltb : D -> D -> bool.
Variable gap : D -> D -> D.
Variable zero : D.
Notation varr := (qstate D nat bool).

Definition cost {A} (c : nat) (m : @M T A) : Prop :=
  forall w x w', m w = Ok (x, w') -> length w' <= c + length w.

Lemma cost_weaken {A} c c' (m : M A) : c <= c' -> cost c m -> cost c' m.
Proof. intros L H w x w' E. specialize (H w x w' E). lia. Qed.
Lemma cost_ret {A} (x : A) : cost 0 (retM x).
Proof. intros w y w' E. injection E as <- <-. lia. Qed.
Lemma cost_lift {A} (r : res A) : cost 0 (liftM r).
Proof. intros w y w' E. unfold liftM in E. destruct r; simpl in E; [|discriminate]. injection E as <- <-. lia. Qed.
Lemma cost_ask x y : cost 1 (ask ev x y).
Proof.
  intros w d w' E. unfold ask in E. destruct (ev x y); simpl in E; [|discriminate].
  injection E as <- <-. simpl. lia.
Qed.
Lemma cost_bind {A B} c1 c2 (m : M A) (k : A -> M B) :
  cost c1 m -> (forall x, cost c2 (k x)) -> cost (c1 + c2) (bindM m k).
Proof.
  intros H K w y w'' E. unfold bindM in E. destruct (m w) as [[x w']|] eqn:Em; simpl in E; [|discriminate].
  specialize (H w x w' Em). specialize (K x w' y w'' E). lia.
Qed.
Lemma cost_bind0 {A B} c (m : M A) (k : A -> M B) :
  cost c m -> (forall x, cost 0 (k x)) -> cost c (bindM m k).
Proof. intros H K. rewrite <- (Nat.add_0_r c). apply cost_bind; auto. Qed.
(** A lifted step whose result is known. *)
Lemma cost_lift_bind {A B} c (r : res A) (k : A -> M B) :
  (forall x, r = Ok x -> cost c (k x)) -> cost c (bindM (liftM r) k).
Proof.
  intros K w y w'' E. unfold bindM, liftM in E. destruct r as [x|]; simpl in E; [|discriminate].
  exact (K x eq_refl w y w'' E).
Qed.
Lemma cost_range {S} n : forall s (body : nat -> S -> M S) st c,
  (forall j st, cost c (body j st)) -> cost (n * c) (for_rangeM n s body st).
Proof.
  induction n as [|n IH]; intros s body st c H; simpl; [apply cost_ret|].
  apply cost_bind; auto.
Qed.
Lemma cost_each {A S} l : forall (body : A -> S -> M S) st c,
  (forall x st, cost c (body x st)) -> cost (length l * c) (for_eachM l body st).
Proof.
  induction l as [|x l IH]; intros body st c H; simpl; [apply cost_ret|].
  apply cost_bind; auto.
Qed.

Section Tree.
Variable par : vparams D.
Variable dataset : list T.
Hypothesis Hcap : 1 <= leaf_capacity par.

Ltac lifted := apply cost_lift_bind; intros.
Ltac zero_cost := apply cost_weaken with (c := 0); [lia|first [apply cost_ret|apply cost_lift]].

Lemma cost_furthest st s e i : cost (e - s) (furthest_c ev ltb zero dataset st s e i).
Proof.
  unfold furthest_c. lifted. apply cost_bind0; [|intro; apply cost_ret].
  apply cost_weaken with (c := (e - s) * 1); [lia|]. apply cost_range. intros j [fd far]. lifted.
  apply cost_bind0; [apply cost_ask|]. intro d. destruct (ltb fd d); apply cost_ret.
Qed.

(** Calls of a round over a range of [n] entries. *)
Definition round_cost (n : nat) : nat :=
  match pivot_kind par with Furthest => 2 * n | _ => 0 end + (n - 1).

Lemma cost_pivoting c st s e :
  cost (match pivot_kind par with Furthest => 2 * (e - s) | _ => 0 end)
    (pivoting_c ev ltb zero par dataset c st s e).
Proof.
  unfold pivoting_c. destruct (pivot_kind par).
  - apply cost_ret.
  - destruct (e <=? s); [apply cost_ret|]. destruct (s <? randrange par c s e); [lifted|]; apply cost_ret.
  - destruct (e <=? s); [zero_cost|]. cbv zeta.
    replace (2 * (e - s)) with ((e - s) + ((e - s) + 0)) by lia.
    apply cost_bind; [apply cost_furthest|intro f1]. apply cost_bind; [apply cost_furthest|intro f2].
    destruct (s <? f2); [lifted|]; apply cost_ret.
Qed.

Lemma cost_step v flag i st : cost 1 (update_step_c ev dataset v flag i st).
Proof.
  unfold update_step_c. lifted. apply cost_bind0; [apply cost_ask|intro d].
  lifted. destruct flag; [apply cost_lift|apply cost_ret].
Qed.

Lemma cost_update_flat c st s e : cost (round_cost (e - s)) (update_flat_c ev ltb zero par dataset c st s e).
Proof.
  unfold update_flat_c, round_cost. apply cost_bind; [apply cost_pivoting|]. intros [c1 st1].
  lifted. lifted. apply cost_weaken with (c := (e - S s) * 1 + 0); [lia|].
  apply cost_bind; [|intro; apply cost_ret]. apply cost_range. intros. apply cost_step.
Qed.
Lemma cost_update_hier c st s e : cost (round_cost (e - s)) (update_hier_c ev ltb zero par dataset c st s e).
Proof.
  unfold update_hier_c, round_cost. apply cost_bind; [apply cost_pivoting|]. intros [c1 st1].
  lifted. apply cost_weaken with (c := (e - S s) * 1 + 0); [lia|].
  apply cost_bind; [|intro; apply cost_ret]. apply cost_range. intros. apply cost_step.
Qed.

(** Calls of a build over [n] entries. *)
Definition build_cost (n : nat) : nat :=
  match pivot_kind par with
  | Furthest => 3 * n * (Nat.log2_up n + 1)
  | _ => n * Nat.log2_up n
  end.

Lemma build_cost_round n : round_cost n <= build_cost n.
Proof.
  assert (Q : n - 1 <= n * Nat.log2_up n).
  { destruct n as [|[|n]]; try (simpl; lia). pose proof (Nat.log2_up_pos (S (S n)) ltac:(lia)). nia. }
  unfold round_cost, build_cost. destruct (pivot_kind par); lia.
Qed.

Lemma build_cost_split n : 2 <= n ->
  round_cost n + (build_cost (n / 2 - 1) + build_cost (n - n / 2)) <= build_cost n.
Proof.
  intro H. pose proof (log2_up_half n H) as L1. pose proof (log2_up_half' n H) as L2.
  pose proof (Nat.div_mod n 2 ltac:(lia)) as D1. pose proof (Nat.mod_upper_bound n 2 ltac:(lia)) as D2.
  set (a := n / 2 - 1) in *. set (b := n - n / 2) in *.
  assert (E : a + b = n - 1) by (unfold a, b; lia).
  unfold round_cost, build_cost.
  assert (Q : n - 1 + (a * Nat.log2_up a + b * Nat.log2_up b) <= n * Nat.log2_up n).
  { transitivity (n - 1 + (a * (Nat.log2_up n - 1) + b * (Nat.log2_up n - 1))).
    - apply Nat.add_le_mono_l, Nat.add_le_mono; apply Nat.mul_le_mono_l; lia.
    - rewrite <- Nat.mul_add_distr_r, E.
      destruct (Nat.log2_up n) as [|k]; [lia|]. replace (S k - 1) with k by lia. nia. }
  destruct (pivot_kind par); lia.
Qed.

Definition stack_cost (stack : list (nat * nat)) : nat :=
  fold_right (fun p acc => build_cost (snd p - fst p) + acc) 0 stack.

Lemma cost_build_loop fuel : forall stack c st,
  cost (stack_cost stack) (build_loop_c ev ltb zero par dataset fuel stack c st).
Proof.
  induction fuel as [|fuel IH]; intros [|[s e] rest] c st; cbn [build_loop_c];
    try (apply cost_ret); try zero_cost. cbv zeta.
  destruct ((2 * leaf_capacity par <? e - s)) eqn:E.
  - apply Nat.ltb_lt in E. destruct (mid_halves s e ltac:(lia)) as [M1 M2].
    pose proof (build_cost_split (e - s) ltac:(lia)) as B. pose proof (build_cost_round (e - s)) as B'.
    apply cost_weaken with (c := round_cost (e - s) +
      (build_cost ((e - s) / 2 - 1) + build_cost ((e - s) - (e - s) / 2) + stack_cost rest));
      [cbn [stack_cost fold_right fst snd]; unfold stack_cost; lia|].
    apply cost_bind; [apply cost_update_flat|]. intros [c1 st1]. lifted. lifted.
    destruct (true && ltb (leaf_radius par) _).
    + lifted. lifted. eapply cost_weaken; [|apply IH]. unfold stack_cost. cbn [fold_right fst snd]. rewrite M1, M2. lia.
    + lifted. lifted. eapply cost_weaken; [|apply IH]. lia.
  - pose proof (build_cost_round (e - s)) as B.
    apply cost_weaken with (c := round_cost (e - s) + stack_cost rest);
      [unfold stack_cost; cbn [fold_right fst snd]; lia|].
    apply cost_bind; [apply cost_update_flat|]. intros [c1 st1]. lifted. lifted. cbn [andb].
    lifted. lifted. apply IH.
Qed.

Lemma cost_build_flat : cost (build_cost (length dataset)) (build_flat_c ev ltb zero par dataset).
Proof.
  unfold build_flat_c. cbv zeta. destruct (0 <? length dataset); [|zero_cost].
  eapply cost_weaken; [|apply cost_build_loop]. unfold stack_cost. cbn [fold_right fst snd].
  rewrite Nat.sub_0_r. lia.
Qed.

Lemma cost_build_rec fuel : forall s e c st,
  cost (build_cost (e - s)) (build_rec_c ev leb ltb zero par dataset fuel s e c st).
Proof.
  induction fuel as [|fuel IH]; intros s e c st; cbn [build_rec_c]; [zero_cost|].
  destruct (Nat.leb_spec (e - s) (leaf_capacity par)) as [L|L]; [zero_cost|]. cbv zeta.
  destruct (mid_halves s e ltac:(lia)) as [M1 M2].
  pose proof (build_cost_split (e - s) ltac:(lia)) as B.
  eapply cost_weaken; [exact B|]. apply cost_bind; [apply cost_update_hier|]. intros [c1 st1].
  lifted. lifted. lifted. lifted. destruct (leb _ (leaf_radius par)); [zero_cost|].
  apply cost_bind; [rewrite <- M1; apply IH|]. intros [lt_ [c2 st4]].
  rewrite <- M2. apply cost_bind0; [apply IH|]. intros [rt_ [c3 st5]]. apply cost_ret.
Qed.

Lemma cost_build_hier : cost (build_cost (length dataset)) (build_hier_c ev leb ltb zero par dataset).
Proof.
  unfold build_hier_c. cbv zeta. destruct (0 <? length dataset); [|zero_cost].
  apply cost_bind0; [|intro; apply cost_ret].
  eapply cost_weaken; [|apply cost_build_rec]. rewrite Nat.sub_0_r. lia.
Qed.

(** *** Searches *)
Lemma cost_leaf q eps incl xs result : cost (length xs) (ball_leaf_c ev leb ltb q eps incl xs result).
Proof.
  unfold ball_leaf_c. rewrite <- (Nat.mul_1_r (length xs)). apply cost_each. intros x st.
  apply cost_bind0; [apply cost_ask|intro; apply cost_ret].
Qed.

Lemma cost_process k q x s : cost 1 (process_c ev leb ltb k q x s).
Proof.
  destruct s as [h r]. unfold process_c. apply cost_bind0; [apply cost_ask|].
  intro d. destruct (match r with None => false | Some r => leb r d end); [apply cost_ret|].
  lifted. lifted. apply cost_ret.
Qed.

Section Built.
Variable metric : T -> T -> D.
Variables (st : varr) (ds : list D) (ps : list T) (ts : list bool).
Hypothesis Hst : holds dataset st ds ps (Some ts).
Notation vtree := (vtree metric leb ds ps ts).

Definition size_of (stack : list (nat * nat)) : nat := fold_right (fun p acc => snd p - fst p + acc) 0 stack.

Lemma vtree_cases s e : vtree s e ->
  (is_terminal st s = Ok true) \/
  (is_terminal st s = Ok false /\ s + 3 <= e /\ S s <= mid_ s e <= e /\
   vtree (S s) (mid_ s e) /\ vtree (mid_ s e) e).
Proof.
  intro V. inversion V as [? ? _ _ _ E|? ? r v H1 H2 E _ _ V1 V2]; subst.
  - left. eapply is_terminal_ok; eauto.
  - right. split; [eapply is_terminal_ok; eauto|]. pose proof (mid_bounds2 s e ltac:(lia)).
    pose proof (mid_bounds s e ltac:(lia)). repeat split; auto; lia.
Qed.

Lemma cost_ball_loop fuel q eps incl : forall stack result,
  Forall (fun p => vtree (fst p) (snd p)) stack ->
  cost (size_of stack) (ball_loop_c ev leb ltb gap dataset fuel st q eps incl stack result).
Proof.
  induction fuel as [|fuel IH]; intros [|[s e] rest] result F; cbn [ball_loop_c];
    try (apply cost_ret); try zero_cost.
  inversion F as [|? ? V F']; subst. cbn [fst snd] in V.
  lifted. lifted. destruct (vtree_cases s e V) as [E|[E [H1 [H2 [V1 V2]]]]];
    apply cost_lift_bind; intros term Et; rewrite E in Et; injection Et as <-.
  - apply cost_lift_bind. intros xs Hx.
    apply cost_weaken with (c := length xs + size_of rest).
    + pose proof (get_points_len dataset st s e xs Hx). unfold size_of. cbn [fold_right fst snd]. lia.
    + apply cost_bind; [apply cost_leaf|]. intro. apply IH, F'.
  - apply cost_weaken with (c := 1 + (size_of [(S s, mid_ s e); (mid_ s e, e)] + size_of rest)).
    + unfold size_of. cbn [fold_right fst snd]. lia.
    + apply cost_bind; [apply cost_ask|]. intro d. cbv zeta.
      destruct (leb d _); destruct (leb (gap d _) eps);
        (eapply cost_weaken; [|apply IH; repeat (apply Forall_cons); cbn [fst snd]; assumption]);
        unfold size_of; cbn [fold_right fst snd]; lia.
Qed.

Definition knn_size (stack : list (nat * nat * D * action)) : nat :=
  fold_right (fun p acc => snd (fst (fst p)) - fst (fst (fst p)) + acc) 0 stack.

(** A range put off is looked at once more. *)
Lemma cost_knn_loop fuel k q : forall stack s,
  Forall (fun p => vtree (fst (fst (fst p))) (snd (fst (fst p)))) stack ->
  cost (knn_size stack) (knn_loop_c ev leb ltb gap zero dataset fuel st k q stack s).
Proof.
  induction fuel as [|fuel IH]; intros [|[[[a b] thr] act] rest] s F; cbn [knn_loop_c];
    try (apply cost_ret); try zero_cost.
  inversion F as [|? ? V F']; subst. cbn [fst snd] in V.
  lifted. lifted. destruct (vtree_cases a b V) as [E|[E [H1 [H2 [V1 V2]]]]];
    apply cost_lift_bind; intros term Et; rewrite E in Et; injection Et as <-.
  - apply cost_lift_bind. intros xs Hx.
    apply cost_weaken with (c := length xs * 1 + knn_size rest).
    + pose proof (get_points_len dataset st a b xs Hx). unfold knn_size. cbn [fold_right fst snd]. lia.
    + apply cost_bind; [|intro; apply IH, F']. apply cost_each. intros y s0.
      apply cost_bind0; [apply cost_process|intro; apply cost_ret].
  - destruct act.
    + apply cost_weaken with (c := 1 + (((mid_ a b - S a) + (b - mid_ a b)) + knn_size rest)).
      * unfold knn_size. cbn [fold_right fst snd]. lia.
      * apply cost_bind; [apply cost_process|]. intros [d s1]. cbv zeta.
        destruct (leb d _);
          (eapply cost_weaken; [|apply IH; repeat (apply Forall_cons); cbn [fst snd]; assumption]);
          unfold knn_size; cbn [fold_right fst snd]; lia.
    + destruct (match snd s with None => true | Some r => ltb thr r end).
      * eapply cost_weaken; [|apply IH; apply Forall_cons; [cbn [fst snd]; exact V|exact F']].
        unfold knn_size. cbn [fold_right fst snd]. lia.
      * eapply cost_weaken; [|apply IH; exact F']. unfold knn_size. cbn [fold_right fst snd]. lia.
Qed.
End Built.

Section BuiltH.
Variable metric : T -> T -> D.
Variable ps : list T.
Notation htree_ok := (htree_ok metric leb ps).

Lemma cost_ball_rec st q eps incl s e t : htree_ok s e t -> forall result,
  cost (e - s) (ball_rec_c ev leb ltb gap dataset st q eps incl t result).
Proof.
  induction 1 as [s e H1|s e r v l rt H1 H2 H3 V1 IH1 V2 IH2]; intro result; cbn [ball_rec_c].
  - apply cost_lift_bind. intros xs Hx. eapply cost_weaken; [|apply cost_leaf].
    exact (get_points_len dataset st s e xs Hx).
  - pose proof (mid_bounds2 s e H1). pose proof (mid_bounds s e ltac:(lia)).
    apply cost_weaken with (c := 1 + ((mid_ s e - S s) + (e - mid_ s e))); [lia|].
    apply cost_bind; [apply cost_ask|]. intro d. cbv zeta. destruct (leb d r).
    + apply cost_bind; [apply IH1|]. intro res2. destruct (leb (gap d r) eps); [apply IH2|zero_cost].
    + rewrite Nat.add_comm.
      apply cost_bind; [apply IH2|]. intro res2. destruct (leb (gap d r) eps); [apply IH1|zero_cost].
Qed.

Lemma cost_knn_rec st k q s e t : htree_ok s e t -> forall h,
  cost (e - s) (knn_rec_c ev leb ltb gap dataset st k q t h).
Proof.
  induction 1 as [s e H1|s e r v l rt H1 H2 H3 V1 IH1 V2 IH2]; intro h; cbn [knn_rec_c].
  - apply cost_lift_bind. intros xs Hx. apply cost_weaken with (c := length xs * 1).
    + pose proof (get_points_len dataset st s e xs Hx). lia.
    + apply cost_each. intros x h0. apply cost_bind0; [apply cost_ask|intro; apply cost_lift].
  - pose proof (mid_bounds2 s e H1). pose proof (mid_bounds s e ltac:(lia)).
    apply cost_weaken with (c := 1 + ((mid_ s e - S s) + (e - mid_ s e))); [lia|].
    apply cost_bind; [apply cost_ask|]. intro d. lifted. cbv zeta. destruct (leb d r).
    + apply cost_bind; [apply IH1|]. intro h2.
      destruct (match get_radius k h2 with None => true | Some rad => leb (gap d r) rad end); [apply IH2|zero_cost].
    + rewrite Nat.add_comm. apply cost_bind; [apply IH2|]. intro h2.
      destruct (match get_radius k h2 with None => true | Some rad => leb (gap d r) rad end); [apply IH1|zero_cost].
Qed.
End BuiltH.
End Tree.

Lemma cost_vptree kind par X : 1 <= leaf_capacity par ->
  cost (build_cost par (length X)) (vptree_c ev leb ltb zero kind par X).
Proof.
  intro H. destruct kind; simpl.
  - apply cost_bind0; [apply cost_build_flat, H|intro; apply cost_ret].
  - apply cost_bind0; [apply cost_build_hier, H|intro; apply cost_ret].
  - apply cost_weaken with (c := 0); [lia|]. apply cost_lift.
Qed.

Lemma cost_searches metric kind par X t : order_ok leb ltb gap -> 1 <= leaf_capacity par ->
  vptree metric leb ltb zero kind par X = Ok t ->
  (forall q eps incl, cost (length X) (ball_search_c ev leb ltb gap t q eps incl)) /\
  (forall q k, cost (length X) (knn_search_c ev leb ltb gap zero t q k)).
Proof.
  intros Ho Hc E. destruct kind; simpl in E; [| |discriminate].
  - destruct X as [|x0 X0].
    + simpl in E. injection E as <-. split; intros; intros w x w' Ex; discriminate.
    + remember (x0 :: X0) as X eqn:EX.
      destruct (build_flat_correct metric leb ltb gap zero par X Ho Hc ltac:(subst; discriminate))
        as [st [ds [ps [ts [Eb [H [P V]]]]]]]. rewrite Eb in E. simpl in E. injection E as <-.
      split; intros.
      * eapply cost_weaken; [|apply (cost_ball_loop par X Hc metric st ds ps ts H); constructor; [exact V|constructor]].
        unfold size_of. cbn [fold_right fst snd]. lia.
      * unfold knn_search_c, knn_flat_c. apply cost_bind0.
        -- eapply cost_weaken; [|apply (cost_knn_loop par X Hc metric st ds ps ts H); constructor; [exact V|constructor]].
           unfold knn_size. cbn [fold_right fst snd]. lia.
        -- intro s. apply cost_lift_bind. intros. apply cost_lift_bind. intros. apply cost_ret.
  - destruct (build_hier_correct metric leb ltb gap zero par X Ho Hc) as [h [st [ds [ps [Eb [H [P V]]]]]]].
    rewrite Eb in E. simpl in E. injection E as <-. split; intros.
    + eapply cost_weaken; [|eapply (cost_ball_rec par X Hc); exact V]. lia.
    + unfold knn_search_c, knn_hier_c. apply cost_bind0.
      * eapply cost_weaken; [|eapply (cost_knn_rec par X Hc); exact V]. lia.
      * intro s. apply cost_lift_bind. intros. apply cost_ret.
Qed.
End Cost.
