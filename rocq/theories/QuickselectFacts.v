(** Proofs about the quickselect model. *)
From Verif Require Import Base SpecArray BaseFacts ModelQuickselect.

Lemma on_range_slice {X} (l : list X) s e P :
  on_range l s e P <-> Forall P (slice l s e).
Proof.
  unfold on_range. rewrite Forall_forall. split.
  - intros H x Hx. apply In_nth_error in Hx. destruct Hx as [i Hi].
    rewrite nth_error_slice in Hi. destruct (Nat.ltb_spec (s + i) e) as [Hlt|]; [|discriminate].
    apply (H (s + i)); [lia|exact Hi].
  - intros H i x Hi Hx. apply H. apply (nth_error_In _ (i - s)).
    rewrite nth_error_slice. replace (s + (i - s)) with i by lia.
    destruct (Nat.ltb_spec i e); [exact Hx|lia].
Qed.

Lemma on_range_moved {X} (l l' : list X) s e f P :
  rearranges s e f -> e <= length l -> moved f l l' ->
  on_range l s e P -> on_range l' s e P.
Proof.
  intros HR He HM. rewrite !on_range_slice.
  apply Permutation_Forall. apply (moved_slice_perm s e f); assumption.
Qed.

Lemma moved_outside {X} (l l' : list X) s e f i :
  rearranges s e f -> moved f l l' -> ~ (s <= i < e) -> nth_error l' i = nth_error l i.
Proof. intros [_ [_ H]] [_ HM] Hi. rewrite HM, H by exact Hi. reflexivity. Qed.

Lemma swap_ok {X} (l : list X) i j :
  i < length l -> j < length l ->
  exists l', swap l i j = Ok l' /\ moved (transp i j) l l'.
Proof.
  intros Hi Hj. unfold swap.
  destruct (rd_lt l j Hj) as [xj [Rj Ej]]. rewrite Rj. cbn [bind].
  destruct (rd_lt l i Hi) as [xi [Ri Ei]]. rewrite Ri. cbn [bind].
  destruct (wr_ok l i xj Hi) as [l1 [W1 [L1 N1]]]. rewrite W1. cbn [bind].
  destruct (wr_ok l1 j xi ltac:(lia)) as [l2 [W2 [L2 N2]]].
  exists l2. split; [exact W2|]. split; [lia|].
  intro n. rewrite N2, N1. unfold transp.
  destruct (Nat.eqb_spec n j) as [Hnj|Hnj], (Nat.eqb_spec n i) as [Hni|Hni]; congruence.
Qed.

Section QS.
Context {K A B : Type}.
Variable ltb : K -> K -> bool.
Notation qst := (qstate K A B).

Definition opt_len {X} (n : nat) (o : option (list X)) : Prop :=
  match o with None => True | Some l => n <= length l end.

Definition fits (st : qst) (n : nat) : Prop :=
  n <= length (qdata st) /\ opt_len n (qextra1 st) /\ opt_len n (qextra2 st).

Definition movedq (f : nat -> nat) (st st' : qst) : Prop :=
  moved f (qdata st) (qdata st') /\
  moved_opt f (qextra1 st) (qextra1 st') /\ moved_opt f (qextra2 st) (qextra2 st').

Lemma movedq_id st : movedq (fun i => i) st st.
Proof. repeat split; auto using moved_opt_id. Qed.

Lemma movedq_comp f g st st1 st2 :
  movedq f st st1 -> movedq g st1 st2 -> movedq (fun i => f (g i)) st st2.
Proof.
  intros [H1 [H2 H3]] [H4 [H5 H6]]. split; [|split].
  - eapply moved_comp; eauto.
  - eapply moved_opt_comp; eauto.
  - eapply moved_opt_comp; eauto.
Qed.

Lemma fits_moved f st st' n : movedq f st st' -> fits st n -> fits st' n.
Proof.
  intros [[H1 _] [H2 H3]] [F1 [F2 F3]]. split; [lia|].
  destruct (qextra1 st), (qextra1 st'), (qextra2 st), (qextra2 st'); simpl in *;
    unfold moved in *; try tauto; intuition lia.
Qed.

Lemma fits_le st n m : m <= n -> fits st n -> fits st m.
Proof.
  intros Hm [F1 [F2 F3]]. split; [lia|].
  destruct (qextra1 st), (qextra2 st); simpl in *; split; auto; lia.
Qed.

Lemma swap_opt_ok {X} (o : option (list X)) n i j :
  opt_len n o -> i < n -> j < n ->
  exists o', swap_opt o i j = Ok o' /\ moved_opt (transp i j) o o'.
Proof.
  destruct o as [l|]; simpl; intros Ho Hi Hj.
  - destruct (swap_ok l i j ltac:(lia) ltac:(lia)) as [l' [E M]].
    rewrite E. exists (Some l'). auto.
  - exists None. auto.
Qed.

Lemma swap_all_ok st n i j :
  fits st n -> i < n -> j < n ->
  exists st', swap_all st i j = Ok st' /\ movedq (transp i j) st st'.
Proof.
  intros [F1 [F2 F3]] Hi Hj. unfold swap_all.
  destruct (swap_ok (qdata st) i j ltac:(lia) ltac:(lia)) as [d [Ed Md]]. rewrite Ed.
  destruct (swap_opt_ok (qextra1 st) n i j F2 Hi Hj) as [e1 [E1 M1]].
  destruct (swap_opt_ok (qextra2 st) n i j F3 Hi Hj) as [e2 [E2 M2]].
  cbn [bind]. rewrite E1. cbn [bind]. rewrite E2. cbn [bind].
  eexists. split; [reflexivity|]. split; [exact Md|]. split; assumption.
Qed.

Lemma partition_correct st start fin p :
  start <= fin -> fits st fin ->
  exists h st' f,
    partition ltb st start fin p = Ok (h, st') /\ start <= h <= fin /\
    rearranges start fin f /\ movedq f st st' /\
    on_range (qdata st') start h (fun x => ltb x p = true) /\
    on_range (qdata st') h fin (fun x => ltb x p = false).
Proof.
  intros Hse HF.
  pose (P := fun (j : nat) (s : nat * qst) =>
    start <= fst s <= j /\ exists f, rearranges start fin f /\ movedq f st (snd s) /\
    on_range (qdata (snd s)) start (fst s) (fun x => ltb x p = true) /\
    on_range (qdata (snd s)) (fst s) j (fun x => ltb x p = false)).
  assert (HL : exists s', for_range (fin - start) start (partition_step ltb p) (start, st) = Ok s'
               /\ P (start + (fin - start)) s').
  { apply for_range_inv.
    - unfold P. simpl. split; [lia|]. exists (fun i => i).
      split; [apply rearranges_id|]. split; [apply movedq_id|].
      split; intros i x Hi; lia.
    - intros j [h st0] Hj [Hh [f [HR [HM [HA HB]]]]]. simpl in *.
      assert (HF0 : fits st0 fin) by (eapply fits_moved; eauto).
      destruct (rd_lt (qdata st0) j) as [x [Rx Ex]]; [destruct HF0; lia|].
      rewrite Rx. cbn [bind]. destruct (ltb x p) eqn:Lx.
      + destruct (swap_all_ok st0 fin h j HF0 ltac:(lia) ltac:(lia)) as [st1 [Es Ms]].
        rewrite Es. cbn [bind]. eexists. split; [reflexivity|].
        unfold P; simpl. split; [lia|].
        exists (fun i => f (transp h j i)). split; [|split; [|split]].
        * apply rearranges_comp; [exact HR|]. apply transp_rearranges; lia.
        * eapply movedq_comp; eauto.
        * destruct Ms as [[_ Ms] _]. intros i y Hi Hy. rewrite Ms in Hy. unfold transp in Hy.
          destruct (Nat.eqb_spec i h) as [->|Hih].
          -- rewrite Ex in Hy. congruence.
          -- destruct (Nat.eqb_spec i j) as [->|Hij]; [lia|]. apply (HA i y); [lia|exact Hy].
        * destruct Ms as [[_ Ms] _]. intros i y Hi Hy. rewrite Ms in Hy. unfold transp in Hy.
          destruct (Nat.eqb_spec i h) as [->|Hih]; [lia|].
          destruct (Nat.eqb_spec i j) as [->|Hij].
          -- apply (HB h y); [lia|exact Hy].
          -- apply (HB i y); [lia|exact Hy].
      + eexists. split; [reflexivity|]. unfold P; simpl. split; [lia|].
        exists f. split; [exact HR|]. split; [exact HM|]. split; [exact HA|].
        intros i y Hi Hy. destruct (Nat.eq_dec i j) as [->|Hij].
        * rewrite Ex in Hy. congruence.
        * apply (HB i y); [lia|exact Hy]. }
  destruct HL as [[h st'] [E [Hh [f [HR [HM [HA HB]]]]]]]. simpl in *.
  replace (start + (fin - start)) with fin in * by lia.
  exists h, st', f. unfold partition. rewrite E. auto 10.
Qed.

(** Ordering around position [k] within [[start, fin)]. *)
Definition ordered_at (l : list K) (start fin k : nat) : Prop :=
  forall pk, nth_error l k = Some pk ->
    on_range l start k (fun x => ltb pk x = false) /\
    on_range l k fin (fun x => ltb x pk = false).

Lemma asym_irrefl x : asym ltb -> ltb x x = false.
Proof. intro H. destruct (ltb x x) eqn:E; auto. rewrite <- E at 1. apply H, E. Qed.

Lemma qs_loop_correct fuel :
  forall st start fin k,
  asym ltb ->
  start <= k < fin -> fits st fin ->
  (2 * (fin - start) + 1 <= fuel \/
   (2 * (fin - start) <= fuel /\
    exists pk pe, nth_error (qdata st) k = Some pk /\ nth_error (qdata st) (fin - 1) = Some pe /\
                  ltb pk pe = true)) ->
  exists st' f,
    qs_loop ltb fuel st start fin k = Ok st' /\ rearranges start fin f /\ movedq f st st' /\
    (neg_trans ltb -> ordered_at (qdata st') start fin k).
Proof.
  induction fuel as [|fuel IH]; intros st start fin k Has Hk HF Hfuel.
  - exfalso. destruct Hfuel as [H|[H _]]; lia.
  - cbn [qs_loop].
    assert (Hlen := HF). destruct Hlen as [Hlen _].
    destruct (rd_lt (qdata st) k ltac:(lia)) as [p [Rp Ep]]. rewrite Rp. cbn [bind].
    destruct (swap_all_ok st fin start k HF ltac:(lia) ltac:(lia)) as [st1 [E1 M1]].
    rewrite E1. cbn [bind].
    assert (HF1 : fits st1 fin) by (eapply fits_moved; eauto).
    destruct (partition_correct st1 (S start) fin p ltac:(lia) HF1)
      as [h [st2 [f [E2 [Hh [HR [M2 [HA HB]]]]]]]].
    rewrite E2. cbn [bind].
    assert (HF2 : fits st2 fin) by (eapply fits_moved; eauto).
    destruct (swap_all_ok st2 fin start (h - 1) HF2 ltac:(lia) ltac:(lia)) as [st3 [E3 M3]].
    rewrite E3. cbn [bind].
    assert (HF3 : fits st3 fin) by (eapply fits_moved; eauto).
    (* where the pivot is *)
    assert (P1 : nth_error (qdata st1) start = Some p).
    { destruct M1 as [[_ M1] _]. rewrite M1. unfold transp. rewrite Nat.eqb_refl. exact Ep. }
    assert (P2 : nth_error (qdata st2) start = Some p).
    { destruct M2 as [M2 _]. rewrite (moved_outside _ _ _ _ _ start HR M2) by lia. exact P1. }
    assert (P3 : nth_error (qdata st3) (h - 1) = Some p).
    { destruct M3 as [[_ M3] _]. rewrite M3. unfold transp.
      destruct (Nat.eqb_spec (h - 1) start) as [Heq|Hne].
      - rewrite Heq. exact P2.
      - rewrite Nat.eqb_refl. exact P2. }
    assert (A3 : on_range (qdata st3) start (h - 1) (fun x => ltb x p = true)).
    { destruct M3 as [[_ M3] _]. intros i x Hi Hx. rewrite M3 in Hx. unfold transp in Hx.
      destruct (Nat.eqb_spec i start) as [->|Hne].
      - apply (HA (h - 1) x); [lia|exact Hx].
      - destruct (Nat.eqb_spec i (h - 1)); [lia|]. apply (HA i x); [lia|exact Hx]. }
    assert (B3 : on_range (qdata st3) h fin (fun x => ltb x p = false)).
    { destruct M3 as [[_ M3] _]. intros i x Hi Hx. rewrite M3 in Hx. unfold transp in Hx.
      destruct (Nat.eqb_spec i start) as [->|Hne]; [lia|].
      destruct (Nat.eqb_spec i (h - 1)); [lia|]. apply (HB i x); [lia|exact Hx]. }
    (* total rearrangement so far *)
    pose (g := fun i => transp start k (f (transp start (h - 1) i))).
    assert (HG : rearranges start fin g).
    { unfold g. apply (rearranges_comp start fin (transp start k) (fun i => f (transp start (h - 1) i))).
      - apply transp_rearranges; lia.
      - apply (rearranges_comp start fin f (transp start (h - 1))).
        + apply (rearranges_widen start fin (S start) fin); [lia|lia|exact HR].
        + apply transp_rearranges; lia. }
    assert (MG : movedq g st st3).
    { unfold g. apply (movedq_comp (transp start k) (fun i => f (transp start (h - 1) i)) st st1 st3 M1).
      apply (movedq_comp f (transp start (h - 1)) st1 st2 st3 M2 M3). }
    (* an element above the pivot at the end forces progress *)
    assert (PROG : (exists pk pe, nth_error (qdata st) k = Some pk /\
              nth_error (qdata st) (fin - 1) = Some pe /\ ltb pk pe = true) -> h < fin).
    { intros [pk [pe [Hpk [Hpe Hlt]]]]. rewrite Ep in Hpk. injection Hpk as <-.
      destruct (Nat.eq_dec h fin) as [Heq|]; [|lia]. exfalso. subst h.
      assert (Hkf : k <> fin - 1).
      { intros ->. rewrite Ep in Hpe. injection Hpe as <-. rewrite asym_irrefl in Hlt by exact Has. discriminate. }
      assert (Hpe1 : nth_error (qdata st1) (fin - 1) = Some pe).
      { destruct M1 as [[_ M1] _]. rewrite M1. unfold transp.
        destruct (Nat.eqb_spec (fin - 1) start); [lia|].
        destruct (Nat.eqb_spec (fin - 1) k); [lia|]. exact Hpe. }
      assert (HN : ~ on_range (qdata st1) (S start) fin (fun x => ltb x p = true)).
      { intro HO. specialize (HO (fin - 1) pe ltac:(lia) Hpe1). simpl in HO.
        apply Has in HO. congruence. }
      apply HN. rewrite on_range_slice in HA |- *.
      eapply Permutation_Forall; [|exact HA]. apply Permutation_sym.
      apply (moved_slice_perm (S start) fin f); [exact HR|destruct HF1; lia|apply M2]. }
    destruct (Nat.eqb_spec h (S k)) as [Hdone|Hcont].
    + exists st3, g. split; [reflexivity|]. split; [exact HG|]. split; [exact MG|].
      intros _ pk Hpk. replace (h - 1) with k in * by lia.
      rewrite P3 in Hpk. injection Hpk as <-. split.
      * intros i x Hi Hx. apply Has. apply (A3 i x Hi Hx).
      * intros i x Hi Hx. destruct (Nat.eq_dec i k) as [->|Hik].
        -- rewrite P3 in Hx. injection Hx as <-. apply asym_irrefl, Has.
        -- apply (B3 i x); [lia|exact Hx].
    + destruct (Nat.leb_spec k (h - 1)) as [Hleft|Hright].
      * (* k < h - 1 : recurse on [start, h) *)
        destruct (nth_error_ex (qdata st3) k) as [pk Hpk]; [destruct HF3; lia|].
        destruct (IH st3 start h k Has ltac:(lia) (fits_le st3 fin h ltac:(lia) HF3))
          as [st' [f' [E' [HR' [M' O']]]]].
        { destruct Hfuel as [Hf|[Hf Hex]].
          - right. split; [lia|]. exists pk, p. split; [exact Hpk|]. split; [exact P3|].
            apply (A3 k pk); [lia|exact Hpk].
          - specialize (PROG Hex). left. lia. }
        exists st', (fun i => g (f' i)). split; [exact E'|]. split; [|split].
        -- apply rearranges_comp; [exact HG|]. apply (rearranges_widen start fin start h); [lia|lia|exact HR'].
        -- eapply movedq_comp; eauto.
        -- intros Hnt pk' Hpk'. specialize (O' Hnt pk' Hpk'). destruct O' as [O1 O2].
           split; [exact O1|]. intros i x Hi Hx.
           destruct (Nat.lt_ge_cases i h) as [Hih|Hih]; [apply (O2 i x); [lia|exact Hx]|].
           rewrite (moved_outside _ _ _ _ _ i HR' (proj1 M')) in Hx by lia.
           assert (Bx := B3 i x ltac:(lia) Hx).
           assert (Lp : ltb p pk' = false).
           { assert (HO : on_range (qdata st') start h (fun x => ltb p x = false)).
             { apply (on_range_moved (qdata st3) (qdata st') start h f'); [exact HR'|destruct HF3; lia|apply M'|].
               intros j y Hj Hy. destruct (Nat.eq_dec j (h - 1)) as [->|Hjh].
               - rewrite P3 in Hy. injection Hy as <-. apply asym_irrefl, Has.
               - apply Has. apply (A3 j y); [lia|exact Hy]. }
             apply (HO k pk'); [lia|exact Hpk']. }
           apply (Hnt x p pk'); assumption.
      * (* h <= k : recurse on [h, fin) *)
        destruct (IH st3 h fin k Has ltac:(lia) HF3) as [st' [f' [E' [HR' [M' O']]]]].
        { left. destruct Hfuel as [Hf|[Hf _]]; lia. }
        exists st', (fun i => g (f' i)). split; [exact E'|]. split; [|split].
        -- apply rearranges_comp; [exact HG|]. apply (rearranges_widen start fin h fin); [lia|lia|exact HR'].
        -- eapply movedq_comp; eauto.
        -- intros Hnt pk' Hpk'. specialize (O' Hnt pk' Hpk'). destruct O' as [O1 O2].
           split; [|exact O2]. intros i x Hi Hx.
           destruct (Nat.lt_ge_cases i h) as [Hih|Hih]; [|apply (O1 i x); [lia|exact Hx]].
           rewrite (moved_outside _ _ _ _ _ i HR' (proj1 M')) in Hx by lia.
           assert (Lx : ltb p x = false).
           { destruct (Nat.eq_dec i (h - 1)) as [->|Hne].
             - rewrite P3 in Hx. injection Hx as <-. apply asym_irrefl, Has.
             - apply Has. apply (A3 i x); [lia|exact Hx]. }
           assert (Lp : ltb pk' p = false).
           { assert (HO : on_range (qdata st') h fin (fun x => ltb x p = false)).
             { apply (on_range_moved (qdata st3) (qdata st') h fin f'); [exact HR'|destruct HF3; lia|apply M'|].
               exact B3. }
             apply (HO k pk'); [lia|exact Hpk']. }
           apply (Hnt pk' p x); assumption.
Qed.

Lemma quickselect_correct (st : qst) start fin k :
  asym ltb -> start <= k < fin -> fits st fin ->
  exists st' f,
    quickselect ltb st start fin k = Ok st' /\ rearranges start fin f /\ movedq f st st' /\
    (neg_trans ltb -> ordered_at (qdata st') start fin k).
Proof.
  intros Has Hk HF. unfold quickselect.
  destruct (Nat.ltb_spec k start); [lia|]. destruct (Nat.leb_spec fin k); [lia|].
  cbn [orb]. apply qs_loop_correct; auto.
Qed.

Lemma quickselect_out (st : qst) start fin k :
  k < start \/ fin <= k -> quickselect ltb st start fin k = Ok st.
Proof.
  intro H. unfold quickselect.
  destruct (Nat.ltb_spec k start), (Nat.leb_spec fin k); cbn [orb]; auto; lia.
Qed.

End QS.
