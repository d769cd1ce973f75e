(** Facts about the aggregations of the former web application. *)
From Coq Require Import String Reals Lra Lia List ZArith Sorting.Permutation Sorting.Sorted.
From Verif Require Import Base BaseFacts SpecMetric ModelArith ModelDraw PyvisProp ModelOldApp OldAppFacts ModelAgg SpecAgg.
Import ListNotations.
Open Scope list_scope. Open Scope nat_scope.

Lemma Rleb_spec a b : reflect (a <= b)%R (Rleb a b).
Proof. unfold Rleb. destruct (Rle_dec a b); constructor; assumption. Qed.
Lemma before_iff x y : before x y = true <-> no_later x y.
Proof.
  unfold before. destruct x as [| |a|], y as [| |b|]; cbn; try tauto; try (split; [discriminate|tauto]).
  destruct (Rleb_spec a b); split; auto; discriminate.
Qed.
Lemma before_total x y : before x y = true \/ before y x = true.
Proof. rewrite !before_iff. destruct x as [| |a|], y as [| |b|]; cbn; auto. destruct (Rle_dec a b); [auto|right; lra]. Qed.
Lemma before_trans x y z : before x y = true -> before y z = true -> before x z = true.
Proof. rewrite !before_iff. destruct x as [| |a|], y as [| |b|], z as [| |c|]; cbn; try tauto. lra. Qed.
Lemma before_antisym x y : before x y = true -> before y x = true -> x = y.
Proof. rewrite !before_iff. destruct x as [| |a|], y as [| |b|]; cbn; try tauto. intros. f_equal. lra. Qed.
Lemma before_refl x : before x x = true.
Proof. destruct (before_total x x); assumption. Qed.
Lemma x_same_iff x y : x_same x y = true <-> x = y.
Proof.
  unfold x_same. rewrite Bool.andb_true_iff. split; [intros [H1 H2]; apply before_antisym; assumption|]. intros <-. split; apply before_refl.
Qed.
Definition bf (x y : xr) : Prop := before x y = true.

Lemma put_sorted x l : StronglySorted bf l -> StronglySorted bf (put before x l).
Proof.
  induction l as [|y r IH]; intro S; cbn; [repeat constructor|]. apply StronglySorted_inv in S. destruct S as [S F].
  destruct (before x y) eqn:E.
  - constructor; [constructor; assumption|]. constructor; [exact E|]. rewrite Forall_forall in F |- *. intros z Z.
    apply (before_trans _ y); [exact E|exact (F z Z)].
  - constructor; [exact (IH S)|]. rewrite Forall_forall in F |- *. intros z Z.
    apply (Permutation_in z (put_perm before x r)) in Z. destruct Z as [<-|Z]; [|exact (F z Z)].
    destruct (before_total x y); [congruence|assumption].
Qed.
Lemma py_sorted_sorted l : StronglySorted bf (py_sorted before l).
Proof. induction l as [|x l IH]; cbn; [constructor|]. apply put_sorted, IH. Qed.
Lemma sorted_unique l : forall l', StronglySorted bf l -> StronglySorted bf l' -> Permutation l l' -> l = l'.
Proof.
  induction l as [|x l IH]; intros l' S S' P; [apply Permutation_nil in P; auto|].
  destruct l' as [|y l']; [apply Permutation_sym, Permutation_nil in P; discriminate|].
  apply StronglySorted_inv in S. destruct S as [S F]. apply StronglySorted_inv in S'. destruct S' as [S' F']. rewrite Forall_forall in F, F'.
  assert (E : x = y).
  { apply before_antisym.
    - assert (I : In y (x :: l)) by (apply (Permutation_in y (Permutation_sym P)); cbn; auto). destruct I as [<-|I]; [apply before_refl|exact (F y I)].
    - assert (I : In x (y :: l')) by (apply (Permutation_in x P); cbn; auto). destruct I as [<-|I]; [apply before_refl|exact (F' x I)]. }
  subst y. f_equal. apply IH; [exact S|exact S'|]. apply Permutation_cons_inv in P. exact P.
Qed.
Lemma py_sorted_perm l l' : Permutation l l' -> py_sorted before l = py_sorted before l'.
Proof.
  intro P. apply sorted_unique; try apply py_sorted_sorted. rewrite !sorted_perm. exact P.
Qed.

(** *** Unique values *)
Definition strict (x y : xr) : Prop := bf x y /\ x <> y.
Lemma runs_spec l : StronglySorted bf l -> let u := fold_right put_run [] l in
  (forall x n, In (x, n) u <-> In x l /\ n = occ x l) /\ StronglySorted strict (map fst u).
Proof.
  induction l as [|x l IH]; intro S; cbn zeta; [cbn; split; [intuition|constructor]|].
  apply StronglySorted_inv in S. destruct S as [S F]. rewrite Forall_forall in F. destruct (IH S) as [I U]. cbn [fold_right].
  set (u := fold_right put_run [] l) in *. unfold put_run. destruct u as [|[y n] r].
  - assert (L : l = []). { destruct l as [|z l']; [reflexivity|]. exfalso. apply (I z (occ z (z :: l'))). cbn; auto. }
    subst l. split; [|repeat constructor]. intros x' n'. cbn. unfold occ. split.
    + intros [H|[]]. injection H as <- <-. split; [auto|]. cbn. destruct (xr_dec x x); [reflexivity|contradiction].
    + intros [[<-|[]] ->]. left. cbn. destruct (xr_dec x x); [reflexivity|contradiction].
  - cbn [map fst] in U. apply StronglySorted_inv in U. destruct U as [U Fu]. rewrite Forall_forall in Fu.
    destruct (x_same x y) eqn:E.
    + apply x_same_iff in E. subst y. split.
      * intros x' n'. split.
        -- intros [H|H].
           ++ injection H as <- <-. split; [cbn; auto|]. unfold occ. cbn. destruct (xr_dec x x); [|contradiction].
              f_equal. apply (I x n). cbn; auto.
           ++ assert (Nx : x' <> x). { intros ->. apply (in_map fst) in H. destruct (Fu x H) as [_ K]. apply K. reflexivity. }
              destruct (proj1 (I x' n') (or_intror H)) as [J K]. split; [cbn; auto|]. unfold occ in *. cbn. destruct (xr_dec x x'); [congruence|exact K].
        -- intros [J K]. unfold occ in K. cbn in K. destruct (xr_dec x x') as [<-|N].
           ++ left. f_equal. rewrite K. f_equal. apply (I x n). cbn; auto.
           ++ destruct J as [J|J]; [contradiction|]. destruct (proj2 (I x' n') (conj J K)) as [H|H]; [injection H as <- _; contradiction|]. right. exact H.
      * cbn [map fst]. constructor; [exact U|]. rewrite Forall_forall. exact Fu.
    + assert (Nx : ~ In x l).
      { intro J. pose proof (proj2 (I x (occ x l)) (conj J eq_refl)) as H. destruct H as [H|H].
        - injection H as H _. subst y. rewrite (proj2 (x_same_iff x x) eq_refl) in E. discriminate.
        - apply (in_map fst) in H. destruct (Fu x H) as [K _]. assert (Y : bf x y) by (apply F; apply (I y n); cbn; auto).
          assert (x = y) by (apply before_antisym; assumption). subst y. rewrite (proj2 (x_same_iff x x) eq_refl) in E. discriminate. }
      split.
      * intros x' n'. split.
        -- intros [H|H].
           ++ injection H as <- <-. split; [cbn; auto|]. unfold occ. cbn. destruct (xr_dec x x); [|contradiction].
              f_equal. symmetry. apply count_occ_not_In. exact Nx.
           ++ destruct (proj1 (I x' n') H) as [J K]. split; [cbn; auto|]. unfold occ in *. cbn. destruct (xr_dec x x') as [<-|]; [contradiction|exact K].
        -- intros [J K]. unfold occ in K. cbn in K. destruct (xr_dec x x') as [<-|N].
           ++ left. f_equal. rewrite K. f_equal. symmetry. apply count_occ_not_In. exact Nx.
           ++ destruct J as [J|J]; [contradiction|]. right. apply I. split; [exact J|exact K].
      * cbn [map fst]. constructor; [constructor; [exact U|rewrite Forall_forall; exact Fu]|]. rewrite Forall_forall. intros z Z.
        assert (Zl : In z l). { apply (in_map_iff fst ((y, n) :: r)) in Z. destruct Z as [[z' m] [<- Z]]. exact (proj1 (proj1 (I z' m) Z)). }
        split; [exact (F z Zl)|]. intros <-. contradiction.
Qed.

Lemma argmax_from_spec l : forall best i k, i < k ->
  let r := argmax_from best i k l in
  (snd r = i /\ fst r = best \/ (k <= snd r /\ nth_error l (snd r - k) = Some (fst r) /\ best < fst r)) /\
  (forall j m, nth_error l j = Some m -> m <= fst r) /\ best <= fst r /\
  (forall j m, nth_error l j = Some m -> k + j < snd r -> m < fst r).
Proof.
  induction l as [|n l IH]; intros best i k L; cbn zeta; cbn [argmax_from].
  - split; [cbn; auto|]. cbn. split; [intros [|j] m H; discriminate|]. split; [lia|intros [|j] m H; discriminate].
  - destruct (Nat.ltb_spec best n) as [B|B].
    + destruct (IH n k (S k) ltac:(lia)) as [H1 [H2 [H3 H4]]]. set (r := argmax_from n k (S k) l) in *.
      split; [|split; [|split]].
      * right. destruct H1 as [[E1 E2]|[E1 [E2 E3]]].
        -- rewrite E1, E2. replace (k - k) with 0 by lia. cbn. split; [lia|]. split; [reflexivity|exact B].
        -- split; [lia|]. replace (snd r - k) with (S (snd r - S k)) by lia. cbn. split; [exact E2|lia].
      * intros [|j] m H; cbn in H; [injection H as <-; lia|exact (H2 j m H)].
      * lia.
      * intros [|j] m H Lj; cbn in H; [injection H as <-|apply (H4 j m H); lia].
        destruct H1 as [[E1 E2]|[E1 [E2 E3]]]; [lia|exact E3].
    + destruct (IH best i (S k) ltac:(lia)) as [H1 [H2 [H3 H4]]]. set (r := argmax_from best i (S k) l) in *.
      split; [|split; [|split]].
      * destruct H1 as [H1|[E1 [E2 E3]]]; [left; exact H1|]. right. split; [lia|]. replace (snd r - k) with (S (snd r - S k)) by lia. cbn. auto.
      * intros [|j] m H; cbn in H; [injection H as <-; lia|exact (H2 j m H)].
      * lia.
      * intros [|j] m H Lj; cbn in H; [injection H as <-|apply (H4 j m H); lia].
        destruct H1 as [[E1 E2]|[E1 [E2 E3]]]; lia.
Qed.
Lemma argmax_spec l i : argmax l = Ok i ->
  exists n, nth_error l i = Some n /\ (forall j m, nth_error l j = Some m -> m <= n /\ (j < i -> m < n)).
Proof.
  destruct l as [|n l]; [discriminate|]. cbn. intro H. injection H as <-.
  destruct (argmax_from_spec l n 0 1 ltac:(lia)) as [H1 [H2 [H3 H4]]]. set (r := argmax_from n 0 1 l) in *.
  exists (fst r). split.
  - destruct H1 as [[E1 E2]|[E1 [E2 E3]]]; [rewrite E1, E2; reflexivity|]. destruct (snd r) as [|t]; [lia|]. cbn. replace t with (S t - 1) by lia. exact E2.
  - intros [|j] m H; cbn in H; [injection H as <-|].
    + split; [lia|]. intro L. destruct H1 as [[E1 E2]|[E1 [E2 E3]]]; lia.
    + split; [exact (H2 j m H)|]. intro L. apply (H4 j m H). lia.
Qed.

Lemma strict_nth l : StronglySorted strict l -> forall i j x y, nth_error l i = Some x -> nth_error l j = Some y -> i <= j -> bf x y.
Proof.
  induction 1 as [|z l S IH F]; intros i j x y Hi Hj L; [destruct i; discriminate|]. rewrite Forall_forall in F.
  destruct i as [|i], j as [|j]; cbn in Hi, Hj.
  - injection Hi as <-. injection Hj as <-. apply before_refl.
  - injection Hi as <-. apply F. apply nth_error_In with j. exact Hj.
  - lia.
  - apply (IH i j); auto. lia.
Qed.
Lemma rd_nth {T} (l : list T) i x : rd l i = Ok x <-> nth_error l i = Some x.
Proof. unfold rd. destruct (nth_error l i); split; intro H; try discriminate; inversion H; reflexivity. Qed.

Lemma mode_spec l x : mode l = Ok x -> is_mode l x.
Proof.
  unfold mode. intro H. apply bind_ok in H. destruct H as [i [Ei H]]. apply rd_nth in H.
  destruct (runs_spec (py_sorted before l) (py_sorted_sorted l)) as [I U]. fold (unique l) in I, U.
  assert (P : Permutation (py_sorted before l) l) by apply sorted_perm.
  assert (O : forall y, occ y (py_sorted before l) = occ y l).
  { intro y. unfold occ. apply (Permutation_count_occ xr_dec). exact P. }
  destruct (argmax_spec _ _ Ei) as [n [En M]].
  rewrite nth_error_map in H, En. destruct (nth_error (unique l) i) as [[x' n']|] eqn:E; [|discriminate]. cbn in H, En. injection H as ->. injection En as ->.
  destruct (proj1 (I x n) (nth_error_In _ _ E)) as [J K]. rewrite O in K.
  assert (Q : forall y, In y l -> exists j, nth_error (unique l) j = Some (y, occ y l)).
  { intros y Y. apply In_nth_error. apply I. rewrite O. split; [apply (Permutation_in y (Permutation_sym P)); exact Y|reflexivity]. }
  split; [apply (Permutation_in x P); exact J|]. split.
  - intros y Y. destruct (Q y Y) as [j Ej]. rewrite <- K. apply (M j). rewrite nth_error_map, Ej. reflexivity.
  - intros y Y C. destruct (Q y Y) as [j Ej]. apply before_iff.
    destruct (Nat.lt_ge_cases j i) as [L|L].
    + exfalso. assert (Z : occ y l < n) by (apply (M j); [rewrite nth_error_map, Ej; reflexivity|exact L]). lia.
    + apply (strict_nth _ U i j); [rewrite nth_error_map, E; reflexivity|rewrite nth_error_map, Ej; reflexivity|exact L].
Qed.
Lemma is_mode_unique l x y : is_mode l x -> is_mode l y -> x = y.
Proof.
  intros [X1 [X2 X3]] [Y1 [Y2 Y3]]. assert (E : occ x l = occ y l) by (pose proof (X2 y Y1); pose proof (Y2 x X1); lia).
  apply before_antisym; apply before_iff; [apply X3|apply Y3]; auto.
Qed.
Lemma mode_some l : l <> [] -> exists x, mode l = Ok x.
Proof.
  intro N. unfold mode. destruct (runs_spec (py_sorted before l) (py_sorted_sorted l)) as [I U]. fold (unique l) in I, U.
  assert (Ne : unique l <> []).
  { intro E. destruct l as [|z l]; [contradiction|]. rewrite E in I. apply (I z (occ z (py_sorted before (z :: l)))). split; [|reflexivity].
    apply (Permutation_in z (Permutation_sym (sorted_perm before (z :: l)))). cbn; auto. }
  destruct (argmax (map snd (unique l))) as [i|e] eqn:E; [|destruct (unique l); [contradiction|discriminate]].
  destruct (argmax_spec _ _ E) as [n [En _]]. cbn. rewrite nth_error_map in En. destruct (nth_error (unique l) i) as [[x n']|] eqn:Ex; [|discriminate].
  exists x. apply rd_nth. rewrite nth_error_map, Ex. reflexivity.
Qed.

(** *** Quantiles *)
Lemma present_reals l : numbers l -> present_values l = map XFin (reals l).
Proof.
  induction l as [|x l IH]; intro N; [reflexivity|]. assert (IHl : present_values l = map XFin (reals l)) by (apply IH; intros z Z; apply N; cbn; auto).
  destruct (N x (or_introl eq_refl)) as [->|[r ->]]; cbn; unfold present_values in IHl; rewrite IHl; reflexivity.
Qed.
Lemma sorted_reals rs : exists s, py_sorted before (map XFin rs) = map XFin s /\ Permutation s rs /\ StronglySorted Rle s.
Proof.
  pose proof (sorted_perm before (map XFin rs)) as P. pose proof (py_sorted_sorted (map XFin rs)) as S.
  destruct (Permutation_map_inv _ _ P) as [s [E Ps]]. exists s. split; [exact E|]. split; [symmetry; exact Ps|].
  rewrite E in S. clear -S. induction s as [|a s IH]; [constructor|]. cbn in S. apply StronglySorted_inv in S. destruct S as [S F].
  constructor; [exact (IH S)|]. rewrite Forall_forall in F |- *. intros b B. assert (K : bf (XFin a) (XFin b)) by (apply F, in_map, B).
  apply before_iff in K. exact K.
Qed.
(** The sorted numbers, joined by straight lines. *)
Definition joined (s : list R) (v : R) : R :=
  let last := length s - 1 in
  if Rleb (INR last) v then nth last s 0%R
  else let i := Z.to_nat (Int_part v) in (nth i s 0 + (nth (S i) s 0 - nth i s 0) * (v - INR i))%R.
Lemma int_part_nat v : (0 <= v)%R -> (INR (Z.to_nat (Int_part v)) <= v < INR (Z.to_nat (Int_part v)) + 1)%R.
Proof.
  intro P. destruct (base_Int_part v) as [H1 H2].
  assert (Z0 : (0 <= Int_part v)%Z). { assert (IZR (-1) < IZR (Int_part v))%R by lra. apply lt_IZR in H. lia. }
  rewrite INR_IZR_INZ, Z2Nat.id by exact Z0. lra.
Qed.
Lemma rd_map_nth s i : i < length s -> rd (map XFin s) i = Ok (XFin (nth i s 0%R)).
Proof. intro L. apply rd_nth. rewrite nth_error_map, (nth_error_nth' s 0%R L). reflexivity. Qed.
Lemma quantile_joined q l s : numbers l -> (0 <= q <= 1)%R -> py_sorted before (map XFin (reals l)) = map XFin s -> s <> [] ->
  quantile q l = Ok (XFin (joined s (INR (length s - 1) * q))).
Proof.
  intros N Q E Ne. unfold quantile. destruct (Rltb_spec q 0); [lra|]. destruct (Rltb_spec 1 q); [lra|]. cbn [orb].
  rewrite (present_reals l N), E. destruct s as [|a s0] eqn:Es; [contradiction|]. rewrite <- Es in *. clear Ne.
  assert (Ls : 0 < length s) by (subst s; cbn; lia).
  replace (match map XFin s with [] => Ok XNan | _ :: _ => _ end) with
    (if Rleb (INR (length s - 1)) (INR (length s - 1) * q) then rd (map XFin s) (length s - 1)
     else bind (rd (map XFin s) (Z.to_nat (Int_part (INR (length s - 1) * q)))) (fun a =>
       bind (rd (map XFin s) (S (Z.to_nat (Int_part (INR (length s - 1) * q))))) (fun b =>
         Ok (lerp a b (INR (length s - 1) * q - INR (Z.to_nat (Int_part (INR (length s - 1) * q)))))))).
  2:{ rewrite map_length. subst s. reflexivity. }
  unfold joined. set (v := (INR (length s - 1) * q)%R). set (i := Z.to_nat (Int_part v)).
  destruct (Rleb_spec (INR (length s - 1)) v) as [H|H]; [apply rd_map_nth; lia|].
  assert (V : (0 <= v)%R) by (apply Rmult_le_pos; [apply pos_INR|lra]).
  pose proof (int_part_nat v V) as Iv. fold i in Iv.
  assert (Li : i < length s - 1). { apply INR_lt. lra. }
  rewrite (rd_map_nth s i) by lia. cbn [bind]. rewrite (rd_map_nth s (S i)) by lia. cbn [bind]. f_equal.
  unfold lerp. destruct (Rltb_spec (v - INR i) (1 / 2)); cbn; f_equal; lra.
Qed.

Section Sorted.
Variable s : list R.
Hypothesis S : StronglySorted Rle s.
Hypothesis Ne : s <> [].
Lemma sorted_nth i j : i <= j -> j < length s -> (nth i s 0 <= nth j s 0)%R.
Proof.
  clear Ne. revert i j. induction S as [|a t St IH F]; intros i j L Lj; [cbn in Lj; lia|]. rewrite Forall_forall in F.
  destruct i as [|i], j as [|j]; cbn in *; try lra; try lia.
  - apply F. apply nth_In. lia.
  - apply IH; [exact St|lia|lia].
Qed.
Lemma len_pos : 0 < length s.
Proof. destruct s; [contradiction|cbn; lia]. Qed.
(** Between which numbers. *)
Lemma joined_cell v : (0 <= v <= INR (length s - 1))%R ->
  exists i, i < length s /\ (INR i <= v < INR i + 1)%R /\ (nth i s 0 <= joined s v)%R /\
    (v = INR i -> joined s v = nth i s 0%R) /\
    ((INR i < v)%R -> Datatypes.S i < length s /\ (joined s v <= nth (Datatypes.S i) s 0)%R).
Proof.
  intro V. pose proof len_pos as L. unfold joined. destruct (Rleb_spec (INR (length s - 1)) v) as [H|H].
  - assert (E : v = INR (length s - 1)) by lra. exists (length s - 1). split; [lia|]. split; [lra|]. split; [lra|]. split; [reflexivity|]. intro; lra.
  - pose proof (int_part_nat v ltac:(lra)) as Iv. set (i := Z.to_nat (Int_part v)) in *.
    assert (Li : i < length s - 1) by (apply INR_lt; lra). exists i. split; [lia|]. split; [lra|].
    pose proof (sorted_nth i (Datatypes.S i) ltac:(lia) ltac:(lia)) as D.
    assert (T : (0 <= v - INR i < 1)%R) by lra. set (d := (nth (Datatypes.S i) s 0 - nth i s 0)%R) in *. assert (D' : (0 <= d)%R) by (unfold d; lra).
    split; [assert (0 <= d * (v - INR i))%R by (apply Rmult_le_pos; lra); lra|].
    split; [intro E; rewrite E; lra|]. intros _. split; [lia|].
    assert (0 <= d * (1 - (v - INR i)))%R by (apply Rmult_le_pos; lra). unfold d in *. lra.
Qed.
Lemma joined_mono v w : (0 <= v)%R -> (v <= w)%R -> (w <= INR (length s - 1))%R -> (joined s v <= joined s w)%R.
Proof.
  intros V VW W. destruct (Req_EM_T v w) as [->|Nvw]; [lra|].
  destruct (joined_cell v ltac:(lra)) as [i [Li [Vi [Bi [Ei Ui]]]]]. destruct (joined_cell w ltac:(lra)) as [j [Lj [Vj [Bj [Ej Uj]]]]].
  assert (IJ : i <= j). { apply Nat.lt_succ_r, INR_lt. rewrite S_INR. lra. }
  destruct (Nat.eq_dec i j) as [->|N].
  - (* same cell *)
    unfold joined. destruct (Rleb_spec (INR (length s - 1)) v); [lra|].
    assert (Ki : Z.to_nat (Int_part v) = j).
    { pose proof (int_part_nat v ltac:(lra)). assert (Z.to_nat (Int_part v) < j + 1) by (apply INR_lt; rewrite plus_INR; cbn; lra).
      assert (j < Z.to_nat (Int_part v) + 1) by (apply INR_lt; rewrite plus_INR; cbn; lra). lia. }
    assert (Kw : Z.to_nat (Int_part w) = j).
    { pose proof (int_part_nat w ltac:(lra)). assert (Z.to_nat (Int_part w) < j + 1) by (apply INR_lt; rewrite plus_INR; cbn; lra).
      assert (j < Z.to_nat (Int_part w) + 1) by (apply INR_lt; rewrite plus_INR; cbn; lra). lia. }
    rewrite Ki. assert (Lw : (INR j < w)%R) by lra. destruct (Uj Lw) as [Lsj _].
    destruct (Rleb_spec (INR (length s - 1)) w) as [Hw|Hw].
    + exfalso. assert (Q : (INR (Datatypes.S j) <= INR (length s - 1))%R) by (apply le_INR; lia). rewrite S_INR in Q. lra.
    + rewrite Kw. pose proof (sorted_nth j (Datatypes.S j) ltac:(lia) ltac:(lia)) as D.
      apply Rplus_le_compat_l, Rmult_le_compat_l; lra.
  - apply Rle_trans with (nth (Datatypes.S i) s 0%R).
    + destruct (Req_EM_T v (INR i)) as [E|E]; [rewrite (Ei E); apply sorted_nth; lia|]. apply Ui. lra.
    + apply Rle_trans with (nth j s 0%R); [apply sorted_nth; lia|exact Bj].
Qed.
Lemma filter_late (f : R -> bool) k : (forall j, k <= j < length s -> f (nth j s 0%R) = false) -> length (filter f s) <= k.
Proof.
  clear. revert k. induction s as [|a t IH]; intros k H; cbn; [lia|]. destruct k as [|k].
  - assert (H0 := H 0 ltac:(cbn; lia)). cbn in H0. rewrite H0. apply IH. intros j J. apply (H (Datatypes.S j)). cbn; lia.
  - assert (length (filter f t) <= k) by (apply IH; intros j J; apply (H (Datatypes.S j)); cbn; lia). destruct (f a); cbn; lia.
Qed.
Lemma filter_early (f : R -> bool) k : (forall j, j < k -> j < length s -> f (nth j s 0%R) = false) -> length (filter f s) <= length s - k.
Proof.
  clear. revert k. induction s as [|a t IH]; intros k H; cbn; [lia|]. destruct k as [|k].
  - assert (Q : forall u : list R, length (filter f u) <= length u) by (induction u as [|b u IHu]; cbn; [lia|destruct (f b); cbn; lia]).
    specialize (Q t). destruct (f a); cbn; lia.
  - assert (H0 := H 0 ltac:(lia) ltac:(cbn; lia)). cbn in H0. rewrite H0. apply IH. intros j J1 J2. apply (H (Datatypes.S j)); cbn; lia.
Qed.
Lemma joined_below v : (0 <= v <= INR (length s - 1))%R -> (INR (below (joined s v) s) < v + 1)%R.
Proof.
  intro V. destruct (joined_cell v V) as [i [Li [Vi [Bi [Ei Ui]]]]]. unfold below.
  destruct (Req_EM_T v (INR i)) as [E|E].
  - assert (L : length (filter (fun r => Rltb r (joined s v)) s) <= i).
    { apply filter_late. intros j J. destruct (Rltb_spec (nth j s 0%R) (joined s v)) as [H|H]; [|reflexivity].
      rewrite (Ei E) in H. pose proof (sorted_nth i j ltac:(lia) ltac:(lia)). lra. }
    apply le_INR in L. lra.
  - destruct (Ui ltac:(lra)) as [Ls Bs].
    assert (L : length (filter (fun r => Rltb r (joined s v)) s) <= Datatypes.S i).
    { apply filter_late. intros j J. destruct (Rltb_spec (nth j s 0%R) (joined s v)) as [H|H]; [|reflexivity].
      pose proof (sorted_nth (Datatypes.S i) j ltac:(lia) ltac:(lia)). lra. }
    apply le_INR in L. rewrite S_INR in L. lra.
Qed.
Lemma joined_above v : (0 <= v <= INR (length s - 1))%R -> (INR (above (joined s v) s) < INR (length s - 1) - v + 1)%R.
Proof.
  intro V. destruct (joined_cell v V) as [i [Li [Vi [Bi [Ei Ui]]]]]. unfold above.
  assert (L : length (filter (fun r => Rltb (joined s v) r) s) <= length s - Datatypes.S i).
  { apply filter_early. intros j J Lj. destruct (Rltb_spec (joined s v) (nth j s 0%R)) as [H|H]; [|reflexivity].
    pose proof (sorted_nth j i ltac:(lia) ltac:(lia)). lra. }
  apply le_INR in L. replace (length s - Datatypes.S i) with (length s - 1 - i) in L by lia. rewrite minus_INR in L by lia. lra.
Qed.
Lemma joined_ends : joined s 0 = nth 0 s 0%R /\ joined s (INR (length s - 1)) = nth (length s - 1) s 0%R.
Proof.
  pose proof len_pos as L. split.
  - destruct (joined_cell 0 ltac:(split; [lra|apply pos_INR])) as [i [Li [Vi [_ [Ei _]]]]].
    assert (i = 0). { destruct i; [reflexivity|]. rewrite S_INR in Vi. pose proof (pos_INR i). lra. } subst i. apply Ei. reflexivity.
  - destruct (joined_cell (INR (length s - 1)) ltac:(split; [apply pos_INR|lra])) as [i [Li [Vi [_ [Ei Ui]]]]].
    assert (i = length s - 1).
    { assert (i <= length s - 1) by (apply INR_le; lra). assert (length s - 1 < Datatypes.S i) by (apply INR_lt; rewrite S_INR; lra). lia. }
    subst i. apply Ei. reflexivity.
Qed.
End Sorted.
Lemma joined_affine a b s v : s <> [] -> (0 <= v)%R -> joined (map (fun r => (a * r + b)%R) s) v = (a * joined s v + b)%R.
Proof.
  intros Ne V. assert (L : 0 < length s) by (destruct s; [contradiction|cbn; lia]). unfold joined. rewrite map_length.
  assert (K : forall i, i < length s -> nth i (map (fun r => (a * r + b)%R) s) 0%R = (a * nth i s 0 + b)%R).
  { intros i Li. rewrite (nth_indep _ 0%R ((fun r => (a * r + b)%R) 0%R)) by (rewrite map_length; exact Li). rewrite (map_nth (fun r => (a * r + b)%R)). reflexivity. }
  destruct (Rleb_spec (INR (length s - 1)) v) as [H|H]; [apply K; lia|].
  pose proof (int_part_nat v V) as Iv. set (i := Z.to_nat (Int_part v)) in *. assert (Li : i < length s - 1) by (apply INR_lt; lra).
  rewrite !K by lia. ring.
Qed.
Lemma sorted_affine a b s : (0 <= a)%R -> StronglySorted Rle s -> StronglySorted Rle (map (fun r => (a * r + b)%R) s).
Proof.
  intros P. induction 1 as [|x s S IH F]; cbn; [constructor|]. constructor; [exact IH|]. rewrite Forall_forall in F |- *.
  intros y Y. apply in_map_iff in Y. destruct Y as [z [<- Z]]. specialize (F z Z). apply Rplus_le_compat_r, Rmult_le_compat_l; assumption.
Qed.
Lemma sorted_bf s : StronglySorted Rle s -> StronglySorted bf (map XFin s).
Proof.
  induction 1 as [|x s S IH F]; cbn; [constructor|]. constructor; [exact IH|]. rewrite Forall_forall in F |- *.
  intros y Y. apply in_map_iff in Y. destruct Y as [z [<- Z]]. apply before_iff. exact (F z Z).
Qed.
Lemma reals_map f l : numbers l -> reals (map (on_numbers f) l) = map f (reals l) /\ numbers (map (on_numbers f) l).
Proof.
  induction l as [|x l IH]; intro N; [split; [reflexivity|intros y []]|].
  destruct (IH (fun z Z => N z (or_intror Z))) as [E M]. split.
  - destruct (N x (or_introl eq_refl)) as [->|[r ->]]; cbn; rewrite E; reflexivity.
  - intros y [<-|Y]; [|exact (M y Y)]. destruct (N x (or_introl eq_refl)) as [->|[r ->]]; cbn; eauto.
Qed.
Lemma perm_below s rs v : Permutation s rs -> below v s = below v rs /\ above v s = above v rs.
Proof.
  intro P. split; apply Permutation_length; induction P; cbn; auto;
    repeat match goal with |- context [if ?b then _ else _] => destruct b end; auto using perm_swap, perm_skip; eauto using Permutation_trans.
Qed.

(** *** Mean and standard deviation *)
Lemma x_sum_reals rs : forall a, fold_left xadd (map XFin rs) (XFin a) = XFin (a + total rs).
Proof. induction rs as [|r rs IH]; intro a; cbn; [f_equal; lra|]. rewrite IH. f_equal. fold (total rs). lra. Qed.
Lemma x_mean_reals rs : rs <> [] -> x_mean (map XFin rs) = XFin (mean_real rs).
Proof.
  intro N. unfold x_mean, x_sum. rewrite x_sum_reals, map_length. cbn.
  destruct (Req_EM_T (INR (length rs)) 0) as [E|E].
  - exfalso. destruct rs; [contradiction|]. apply (not_0_INR (length (r :: rs))); [cbn; lia|exact E].
  - f_equal. unfold mean_real. rewrite Rplus_0_l. reflexivity.
Qed.
Lemma len_ne (rs : list R) : rs <> [] -> (0 < INR (length rs))%R.
Proof. intro N. apply lt_0_INR. destruct rs; [contradiction|cbn; lia]. Qed.
Lemma total_nonneg rs : (forall r, In r rs -> (0 <= r)%R) -> (0 <= total rs)%R.
Proof.
  induction rs as [|r rs IH]; intro H; cbn; [lra|]. assert (0 <= r)%R by (apply H; cbn; auto).
  assert (0 <= total rs)%R by (apply IH; intros x X; apply H; cbn; auto). unfold total in *. lra.
Qed.
Lemma variance_nonneg rs : rs <> [] -> (0 <= variance rs)%R.
Proof.
  intro N. unfold variance, mean_real at 1. apply Rmult_le_pos; [|apply Rlt_le, Rinv_0_lt_compat; rewrite map_length; apply len_ne, N].
  apply total_nonneg. intros r H. apply in_map_iff in H. destruct H as [x [<- _]]. apply Rle_0_sqr.
Qed.
Lemma nan_std_reals l : numbers l -> reals l <> [] -> nan_std l = Ok (XFin (sqrt (variance (reals l)))).
Proof.
  intros N Ne. unfold nan_std. rewrite (present_reals l N). destruct (map XFin (reals l)) as [|x xs] eqn:E; [destruct (reals l); [contradiction|discriminate]|].
  rewrite <- E. rewrite (x_mean_reals _ Ne).
  assert (M : map (fun x => xmul (xsub x (XFin (mean_real (reals l)))) (xsub x (XFin (mean_real (reals l))))) (map XFin (reals l)) =
    map XFin (map (fun r => ((r - mean_real (reals l)) * (r - mean_real (reals l)))%R) (reals l))) by (rewrite !map_map; reflexivity).
  rewrite M.
  rewrite x_mean_reals by (destruct (reals l); [contradiction|discriminate]). cbn. fold (variance (reals l)).
  pose proof (variance_nonneg (reals l) Ne). destruct (Rltb_spec (variance (reals l)) 0); [lra|reflexivity].
Qed.
Lemma total_affine a b rs : total (map (fun r => (a * r + b)%R) rs) = (a * total rs + INR (length rs) * b)%R.
Proof.
  induction rs as [|r rs IH]; cbn [map total fold_right length]; [cbn; lra|]. unfold total in IH. rewrite IH, S_INR. ring.
Qed.
Lemma mean_affine a b rs : rs <> [] -> mean_real (map (fun r => (a * r + b)%R) rs) = (a * mean_real rs + b)%R.
Proof. intro N. unfold mean_real. rewrite total_affine, map_length. pose proof (len_ne rs N). field. lra. Qed.
Lemma variance_affine a b rs : rs <> [] -> variance (map (fun r => (a * r + b)%R) rs) = (a * a * variance rs)%R.
Proof.
  intro N. unfold variance. rewrite (mean_affine a b rs N), map_map.
  rewrite (map_ext _ (fun r => (a * a * ((r - mean_real rs) * (r - mean_real rs)) + 0)%R)) by (intro; ring).
  rewrite <- (map_map (fun r => ((r - mean_real rs) * (r - mean_real rs))%R) (fun r => (a * a * r + 0)%R)).
  rewrite mean_affine by (destruct rs; [contradiction|discriminate]). ring.
Qed.
(** The mean squared distance to any number. *)
Lemma total_about c m rs : total (map (fun r => ((r - c) * (r - c))%R) rs) =
  (total (map (fun r => ((r - m) * (r - m))%R) rs) + 2 * (m - c) * (total rs - INR (length rs) * m) + INR (length rs) * ((m - c) * (m - c)))%R.
Proof.
  induction rs as [|r rs IH]; cbn [map total fold_right length]; [cbn; ring|]. unfold total in IH. rewrite IH, S_INR. ring.
Qed.
Lemma total_bound B rs : (forall r, In r rs -> (r <= B)%R) -> (total rs <= INR (length rs) * B)%R.
Proof.
  induction rs as [|r rs IH]; intro H; [cbn; lra|]. cbn [total fold_right length]. rewrite S_INR. assert (r <= B)%R by (apply H; cbn; auto).
  assert (total rs <= INR (length rs) * B)%R by (apply IH; intros x X; apply H; cbn; auto). unfold total in *. lra.
Qed.
Lemma variance_bound rs lo hi : rs <> [] -> (forall r, In r rs -> (lo <= r <= hi)%R) -> (variance rs <= (hi - lo) / 2 * ((hi - lo) / 2))%R.
Proof.
  intros N H. pose proof (len_ne rs N) as L. set (c := ((lo + hi) / 2)%R). set (m := mean_real rs).
  assert (E : (total rs - INR (length rs) * m = 0)%R) by (unfold m, mean_real; field; lra).
  pose proof (total_about c m rs) as T. rewrite E in T.
  assert (B : (total (map (fun r => ((r - c) * (r - c))%R) rs) <= INR (length rs) * ((hi - lo) / 2 * ((hi - lo) / 2)))%R).
  { rewrite <- (map_length (fun r => ((r - c) * (r - c))%R) rs). apply total_bound. intros x X. apply in_map_iff in X. destruct X as [r [<- R]].
    specialize (H r R). unfold c. assert (0 <= (r - lo) * (hi - r))%R by (apply Rmult_le_pos; lra). nra. }
  unfold variance, mean_real at 1. fold m. rewrite map_length. apply (Rmult_le_reg_l (INR (length rs))); [exact L|].
  replace (INR (length rs) * (total (map (fun r => ((r - m) * (r - m))%R) rs) / INR (length rs)))%R with (total (map (fun r => ((r - m) * (r - m))%R) rs)) by (field; lra).
  assert (0 <= INR (length rs) * ((m - c) * (m - c)))%R by (apply Rmult_le_pos; [lra|apply Rle_0_sqr]). lra.
Qed.
Lemma total_zero rs : (forall r, In r rs -> (0 <= r)%R) -> total rs = 0%R -> forall r, In r rs -> r = 0%R.
Proof.
  induction rs as [|a rs IH]; intros P E r I; [destruct I|]. cbn [total fold_right] in E. fold (total rs) in E.
  assert (0 <= a)%R by (apply P; cbn; auto). assert (0 <= total rs)%R by (apply total_nonneg; intros x X; apply P; cbn; auto).
  destruct I as [<-|I]; [lra|]. apply IH; [intros x X; apply P; cbn; auto|lra|exact I].
Qed.
Lemma variance_zero rs : rs <> [] -> (variance rs = 0%R <-> forall a b, In a rs -> In b rs -> a = b).
Proof.
  intro N. pose proof (len_ne rs N) as L. split.
  - intros E a b I J. unfold variance, mean_real at 1 in E. rewrite map_length in E. set (m := mean_real rs) in *.
    assert (Z : total (map (fun r => ((r - m) * (r - m))%R) rs) = 0%R).
    { apply Rmult_integral in E. destruct E as [E|E]; [exact E|]. pose proof (Rinv_0_lt_compat _ L). lra. }
    assert (K : forall r, In r rs -> r = m).
    { intros r R. assert (Q : ((r - m) * (r - m) = 0)%R).
      { refine (total_zero _ _ Z _ _); [intros x X; apply in_map_iff in X; destruct X as [y [<- _]]; apply Rle_0_sqr|]. apply in_map_iff. eauto. }
      apply Rsqr_0_uniq in Q. lra. }
    rewrite (K a I), (K b J). reflexivity.
  - intro H. destruct rs as [|a rs0] eqn:Er; [contradiction|]. rewrite <- Er in *.
    assert (Ha : In a rs) by (subst rs; cbn; auto).
    assert (P := variance_nonneg rs N). assert (B := variance_bound rs a a N).
    assert (Q : (variance rs <= (a - a) / 2 * ((a - a) / 2))%R) by (apply B; intros r R; rewrite (H r a R Ha); lra). lra.
Qed.
