(** Properties of the aggregations of the former web application (app/streamlit_app.py), C73. *)
From Coq Require Import String Reals Lra Lia List ZArith Sorting.Permutation Sorting.Sorted.
From Verif Require Import Base BaseFacts SpecMetric ModelArith ModelDraw PyvisProp ModelPlotly ModelApp ModelOldApp SpecOldApp OldAppFacts ModelAgg SpecAgg AggFacts.
Import ListNotations.
Open Scope list_scope. Open Scope nat_scope.

(** Counting occurrences of given numbers. *)
Ltac count := unfold occ; cbn -[Req_EM_T]; repeat (match goal with |- context [Req_EM_T ?a ?b] => destruct (Req_EM_T a b); try lra end; cbn -[Req_EM_T]).

(** ** C73: "Mode" is the least of the most frequent values, missing values being the last of all; it is
    one of the values, and does not depend on their order. *)
Theorem C73_mode : forall l,
  (l = [] -> mode l = Err ValueError) /\ (forall x, mode l = Ok x <-> is_mode l x) /\
  (l <> [] -> exists x, mode l = Ok x) /\ (forall l', Permutation l l' -> mode l' = mode l).
Proof.
  intro l. split; [intros ->; reflexivity|]. split; [|split].
  - intro x. split; [apply mode_spec|]. intro H. destruct (mode_some l) as [y E]; [destruct H as [I _]; destruct l; [destruct I|discriminate]|].
    rewrite E. f_equal. apply (is_mode_unique l); [apply mode_spec, E|exact H].
  - apply mode_some.
  - intros l' P. unfold mode, unique. rewrite (py_sorted_perm l l' P). reflexivity.
Qed.
Print Assumptions C73_mode.
(** ** C73 fails: "Mode" ignores missing values, as the other aggregations do. *)
Theorem C73_mode_missing_refuted : exists l r, In (XFin r) l /\ mode l = Ok XNan /\ quantile (1 / 2) l = Ok (XFin r) /\ nan_mean l = Ok (XFin r).
Proof.
  exists [XNan; XFin 3; XNan], 3%R. split; [cbn; auto|]. split; [|split].
  - apply C73_mode. split; [cbn; auto|]. split.
    + intros y [<-|[<-|[<-|[]]]]; count; lia.
    + intros y [<-|[<-|[<-|[]]]]; count; try lia; auto.
  - assert (N : numbers [XNan; XFin 3; XNan]) by (intros x [<-|[<-|[<-|[]]]]; eauto).
    rewrite (quantile_joined (1 / 2) [XNan; XFin 3; XNan] [3%R] N ltac:(lra) eq_refl ltac:(discriminate)).
    unfold joined. cbn [length Nat.sub INR]. destruct (Rleb_spec 0 (0 * (1 / 2))); [reflexivity|lra].
  - unfold nan_mean. cbn. destruct (Req_EM_T 1 0); [lra|]. f_equal. f_equal. lra.
Qed.
Print Assumptions C73_mode_missing_refuted.

(** ** C73: "Quantile" with rank [q] is a number with fewer than (n - 1) q + 1 of the n numbers below it and
    fewer than (n - 1) (1 - q) + 1 above it. It is not-a-number exactly if there is no number, and ranks
    outside of [0, 1] raise. *)
Theorem C73_quantile : forall l q, numbers l ->
  (~ (0 <= q <= 1)%R -> quantile q l = Err ValueError) /\
  ((0 <= q <= 1)%R -> reals l = [] -> quantile q l = Ok XNan) /\
  ((0 <= q <= 1)%R -> reals l <> [] -> exists v, quantile q l = Ok (XFin v) /\
     (INR (below v (reals l)) < INR (length (reals l) - 1) * q + 1)%R /\
     (INR (above v (reals l)) < INR (length (reals l) - 1) * (1 - q) + 1)%R).
Proof.
  intros l q N. split; [|split].
  - intro H. unfold quantile. destruct (Rltb_spec q 0); [reflexivity|]. destruct (Rltb_spec 1 q); [reflexivity|]. lra.
  - intros Q E. unfold quantile. destruct (Rltb_spec q 0); [lra|]. destruct (Rltb_spec 1 q); [lra|]. rewrite (present_reals l N), E. reflexivity.
  - intros Q Ne. destruct (sorted_reals (reals l)) as [s [E [P S]]].
    assert (Ns : s <> []) by (intros ->; apply Permutation_nil in P; auto).
    assert (Ls : length (reals l) = length s) by (symmetry; apply Permutation_length, P).
    exists (joined s (INR (length s - 1) * q)). split; [apply quantile_joined; assumption|].
    destruct (perm_below s (reals l) (joined s (INR (length s - 1) * q)) P) as [<- <-]. rewrite Ls.
    assert (V : (0 <= INR (length s - 1) * q <= INR (length s - 1))%R).
    { pose proof (pos_INR (length s - 1)). split; [apply Rmult_le_pos; lra|]. rewrite <- (Rmult_1_r (INR (length s - 1))) at 2. apply Rmult_le_compat_l; lra. }
    split; [apply joined_below; assumption|]. pose proof (joined_above s S Ns _ V). lra.
Qed.
Print Assumptions C73_quantile.

(** ** C73: the ranks 0, 1/(n-1), 2/(n-1), ..., 1 give the numbers in increasing order, and other ranks lie
    on straight lines between these. This determines all quantiles. *)
Theorem C73_quantile_ranks : forall l, numbers l -> reals l <> [] ->
  let n := length (reals l) in
  exists s, Permutation s (reals l) /\ StronglySorted Rle s /\
  (forall q i, (0 <= q <= 1)%R -> i < n -> (INR (n - 1) * q = INR i)%R -> quantile q l = Ok (XFin (nth i s 0%R))) /\
  (forall q i t, S i < n -> (0 <= t <= 1)%R -> (INR (n - 1) * q = INR i + t)%R ->
     quantile q l = Ok (XFin ((1 - t) * nth i s 0 + t * nth (S i) s 0)%R)).
Proof.
  intros l N Ne n. destruct (sorted_reals (reals l)) as [s [E [P S]]]. exists s. split; [exact P|]. split; [exact S|].
  assert (Ns : s <> []) by (intros ->; apply Permutation_nil in P; auto).
  assert (Ls : n = length s) by (symmetry; apply Permutation_length, P).
  assert (A1 : forall q i, (0 <= q <= 1)%R -> i < n -> (INR (n - 1) * q = INR i)%R -> quantile q l = Ok (XFin (nth i s 0%R))).
  { intros q i Q L Ei. rewrite (quantile_joined q l s N Q E Ns). rewrite <- Ls, Ei. f_equal. f_equal.
    destruct (joined_cell s S Ns (INR i)) as [j [Lj [Vj [_ [Ej _]]]]]; [split; [apply pos_INR|apply le_INR; lia]|].
    assert (j = i). { assert (j <= i) by (apply INR_le; lra). assert (i < Datatypes.S j) by (apply INR_lt; rewrite S_INR; lra). lia. }
    subst j. apply Ej. reflexivity. }
  split; [exact A1|]. intros q i t L T Ei.
  assert (Pn : (0 < INR (n - 1))%R) by (apply lt_0_INR; lia).
  assert (Li : (INR i + 1 <= INR (n - 1))%R) by (rewrite <- S_INR; apply le_INR; lia).
  assert (Q : (0 <= q <= 1)%R).
  { pose proof (pos_INR i). split; [apply (Rmult_le_reg_l (INR (n - 1))); [exact Pn|]; lra|apply (Rmult_le_reg_l (INR (n - 1))); [exact Pn|]; lra]. }
  destruct (Req_EM_T t 1) as [->|Nt].
  - rewrite (A1 q (Datatypes.S i) Q L); [|rewrite S_INR; exact Ei]. f_equal. f_equal. lra.
  - rewrite (quantile_joined q l s N Q E Ns). rewrite <- Ls, Ei. f_equal. f_equal. unfold joined. rewrite <- Ls.
    destruct (Rleb_spec (INR (n - 1)) (INR i + t)); [lra|].
    assert (K : Z.to_nat (Int_part (INR i + t)) = i).
    { pose proof (int_part_nat (INR i + t) ltac:(pose proof (pos_INR i); lra)) as Iv. set (j := Z.to_nat (Int_part (INR i + t))) in *.
      assert (j < Datatypes.S i) by (apply INR_lt; rewrite S_INR; lra). assert (i < Datatypes.S j) by (apply INR_lt; rewrite S_INR; lra). lia. }
    rewrite K. lra.
Qed.
Print Assumptions C73_quantile_ranks.
(** ** C73: rank 0 is the least number and rank 1 the greatest; larger ranks give no smaller numbers; the order
    of the values does not matter; units can be changed before or after. *)
Theorem C73_quantile_moves : forall l, numbers l ->
  (forall v, reals l <> [] -> quantile 0 l = Ok (XFin v) <-> least (reals l) v) /\
  (forall v, reals l <> [] -> quantile 1 l = Ok (XFin v) <-> greatest (reals l) v) /\
  (forall q q' v v', (q <= q')%R -> quantile q l = Ok (XFin v) -> quantile q' l = Ok (XFin v') -> (v <= v')%R) /\
  (forall q l', Permutation l l' -> quantile q l' = quantile q l) /\
  (forall q a b v, (0 <= a)%R -> quantile q l = Ok (XFin v) -> quantile q (map (on_numbers (fun r => (a * r + b)%R)) l) = Ok (XFin (a * v + b))).
Proof.
  intros l N.
  assert (D : forall q v, quantile q l = Ok (XFin v) -> (0 <= q <= 1)%R /\ reals l <> []).
  { intros q v H. destruct (C73_quantile l q N) as [Q1 [Q2 _]].
    destruct (Rle_dec 0 q) as [H0|H0]; [|rewrite Q1 in H by lra; discriminate].
    destruct (Rle_dec q 1) as [H1|H1]; [|rewrite Q1 in H by lra; discriminate].
    split; [lra|]. intro E. rewrite Q2 in H by (lra || exact E). discriminate. }
  destruct (sorted_reals (reals l)) as [s [E [P S]]].
  assert (Ls : length (reals l) = length s) by (symmetry; apply Permutation_length, P).
  assert (Ns : reals l <> [] -> s <> []) by (intros Ne ->; apply Permutation_nil in P; auto).
  assert (J : forall q, (0 <= q <= 1)%R -> reals l <> [] -> quantile q l = Ok (XFin (joined s (INR (length s - 1) * q))))
    by (intros; apply quantile_joined; auto).
  split; [|split; [|split; [|split]]].
  - intros v Ne. rewrite (J 0%R ltac:(lra) Ne), Rmult_0_r. destruct (joined_ends s S (Ns Ne)) as [-> _].
    assert (Lst : least (reals l) (nth 0 s 0%R)).
    { split; [apply (Permutation_in _ P), nth_In; exact (len_pos s S (Ns Ne))|]. intros r R. apply (Permutation_in _ (Permutation_sym P)) in R.
      apply (In_nth _ _ 0%R) in R. destruct R as [k [Lk <-]]. apply sorted_nth; [exact S|lia|exact Lk]. }
    split; [intro H; injection H as <-; exact Lst|]. intros [V1 V2]. f_equal. f_equal. destruct Lst as [L1 L2].
    specialize (V2 _ L1). specialize (L2 _ V1). lra.
  - intros v Ne. rewrite (J 1%R ltac:(lra) Ne), Rmult_1_r. destruct (joined_ends s S (Ns Ne)) as [_ ->]. pose proof (len_pos s S (Ns Ne)) as L.
    assert (Gst : greatest (reals l) (nth (length s - 1) s 0%R)).
    { split; [apply (Permutation_in _ P), nth_In; lia|]. intros r R. apply (Permutation_in _ (Permutation_sym P)) in R.
      apply (In_nth _ _ 0%R) in R. destruct R as [k [Lk <-]]. apply sorted_nth; [exact S|lia|lia]. }
    split; [intro H; injection H as <-; exact Gst|]. intros [V1 V2]. f_equal. f_equal. destruct Gst as [G1 G2].
    specialize (V2 _ G1). specialize (G2 _ V1). lra.
  - intros q q' v v' L H H'. destruct (D q v H) as [Q Ne]. destruct (D q' v' H') as [Q' _].
    rewrite (J q Q Ne) in H. rewrite (J q' Q' Ne) in H'. injection H as <-. injection H' as <-.
    pose proof (pos_INR (length s - 1)). apply joined_mono; [exact S|apply Ns, Ne|apply Rmult_le_pos; lra|apply Rmult_le_compat_l; lra|].
    rewrite <- (Rmult_1_r (INR (length s - 1))) at 2. apply Rmult_le_compat_l; lra.
  - intros q l' Pl. unfold quantile. assert (Pp : Permutation (present_values l) (present_values l')).
    { unfold present_values. clear -Pl. induction Pl; cbn; auto; repeat match goal with |- context [if ?b then _ else _] => destruct b end; auto using perm_swap; eauto using Permutation_trans. }
    rewrite (py_sorted_perm _ _ Pp). reflexivity.
  - intros q a b v Pa H. destruct (D q v H) as [Q Ne]. rewrite (J q Q Ne) in H. injection H as <-.
    destruct (reals_map (fun r => (a * r + b)%R) l N) as [Er Nr].
    rewrite (quantile_joined q _ (map (fun r => (a * r + b)%R) s) Nr Q).
    + rewrite map_length, joined_affine; [reflexivity|apply Ns, Ne|]. apply Rmult_le_pos; [apply pos_INR|lra].
    + apply sorted_unique; [apply py_sorted_sorted|apply sorted_bf, sorted_affine; assumption|].
      rewrite sorted_perm, Er. apply Permutation_map, Permutation_map. symmetry. exact P.
    + intro M. apply map_eq_nil in M. apply (Ns Ne M).
Qed.
Print Assumptions C73_quantile_moves.

(** ** C73: "Std" is the root of the mean squared deviation from the mean: zero exactly if all numbers are
    equal, at most half of the range, unchanged by shifts, and scaled with the values. *)
Theorem C73_std : forall l, numbers l ->
  (reals l = [] -> nan_std l = Ok XNan) /\
  (reals l <> [] -> exists v, nan_std l = Ok (XFin v) /\ (0 <= v)%R /\ (v * v = variance (reals l))%R /\
     (v = 0%R <-> forall a b, In a (reals l) -> In b (reals l) -> a = b) /\
     (forall lo hi, least (reals l) lo -> greatest (reals l) hi -> (v <= (hi - lo) / 2)%R) /\
     (forall a b, nan_std (map (on_numbers (fun r => (a * r + b)%R)) l) = Ok (XFin (Rabs a * v)))).
Proof.
  intros l N. split.
  - intro E. unfold nan_std. rewrite (present_reals l N), E. reflexivity.
  - intro Ne. pose proof (variance_nonneg (reals l) Ne) as V. exists (sqrt (variance (reals l))). split; [apply nan_std_reals; assumption|].
    split; [apply sqrt_pos|]. split; [apply sqrt_sqrt, V|]. split; [|split].
    + rewrite <- (variance_zero (reals l) Ne). split; [apply sqrt_eq_0, V|]. intros ->. apply sqrt_0.
    + intros lo hi [L1 L2] [G1 G2]. assert (H : (lo <= hi)%R) by (apply L2, G1).
      rewrite <- (sqrt_square ((hi - lo) / 2)) by lra. apply sqrt_le_1_alt, variance_bound; [exact Ne|]. intros r R. split; auto.
    + intros a b. destruct (reals_map (fun r => (a * r + b)%R) l N) as [Er Nr].
      rewrite nan_std_reals; [|exact Nr|rewrite Er; intro M; apply map_eq_nil in M; contradiction].
      f_equal. f_equal. rewrite Er, variance_affine by exact Ne. rewrite sqrt_mult by (apply Rle_0_sqr || exact V).
      change (a * a)%R with (Rsqr a). rewrite sqrt_Rsqr_abs. reflexivity.
Qed.
Print Assumptions C73_std.

(** ** C73: the names tell the aggregations apart for the ranks 0, 0.01, ..., 1 of the slider, as the
    cache of figures needs ([names_tell] in C72). *)
Definition offered (c : choice) : Prop := match c with Quantile q => exists i, q = (IZR i / 100)%R | _ => True end.
Theorem C73_names : forall text, (forall i j, text i = text j -> i = j) ->
  (forall c c', offered c -> offered c' -> agg_name text c = agg_name text c' -> c = c') /\
  forall algo (is : list (inputs XA algo)),
    (forall i, In i is -> exists c, offered c /\ i_agg i = agg_of c /\ i_agg_name i = agg_name text c) -> names_tell XA algo is.
Proof.
  intros text T.
  assert (R : forall i, round_even (IZR i / 100 * 100) = i).
  { intro i. replace (IZR i / 100 * 100)%R with (IZR i) by field. apply round_even_int. }
  assert (G : forall c c', offered c -> offered c' -> agg_name text c = agg_name text c' -> c = c').
  { intros [| | |q] [| | |q'] O O' H; try reflexivity; try discriminate. destruct O as [i ->], O' as [j ->]. cbn in H.
    injection H as H. rewrite !R in H. apply T in H. subst. reflexivity. }
  split; [exact G|]. intros algo is H i j I J E. destruct (H i I) as [c [O [A1 A2]]]. destruct (H j J) as [c' [O' [B1 B2]]].
  assert (c = c') by (apply G; congruence). congruence.
Qed.
Print Assumptions C73_names.
(** ** C73 fails: names tell apart quantiles of any rank. *)
Theorem C73_names_refuted : exists q q' l, forall text, agg_name text (Quantile q) = agg_name text (Quantile q') /\ quantile q l <> quantile q' l.
Proof.
  exists (501 / 1000)%R, (502 / 1000)%R, [XFin 0; XFin 1]. intro text. split.
  - cbn. assert (R : forall r, (50 < r < 101 / 2)%R -> round_even r = 50%Z).
    { intros r Hr. unfold round_even. assert (I : Int_part r = 50%Z).
      { destruct (base_Int_part r) as [H1 H2]. assert (K1 : (IZR (Int_part r) < IZR 51)%R) by lra. assert (K2 : (IZR 49 < IZR (Int_part r))%R) by lra.
        apply lt_IZR in K1, K2. lia. }
      rewrite I. destruct (Rltb_spec (r - 50) (1 / 2)); [reflexivity|lra]. }
    rewrite !R by lra. reflexivity.
  - assert (N : numbers [XFin 0; XFin 1]) by (intros x [<-|[<-|[]]]; eauto).
    assert (E : py_sorted before (map XFin (reals [XFin 0; XFin 1])) = map XFin [0%R; 1%R]).
    { cbn. unfold before. cbn. destruct (Rleb_spec 0 1); [reflexivity|lra]. }
    rewrite (quantile_joined (501 / 1000) _ [0%R; 1%R] N ltac:(lra) E ltac:(discriminate)).
    rewrite (quantile_joined (502 / 1000) _ [0%R; 1%R] N ltac:(lra) E ltac:(discriminate)).
    assert (J : forall q, (0 < q < 1)%R -> joined [0%R; 1%R] (1 * q) = q).
    { intros q Hq. unfold joined. cbn [length Nat.sub]. change (INR 1) with 1%R. destruct (Rleb_spec 1 (1 * q)); [lra|].
      pose proof (int_part_nat (1 * q) ltac:(lra)) as Iv.
      assert (Z : Z.to_nat (Int_part (1 * q)) = 0). { destruct (Z.to_nat (Int_part (1 * q))) as [|k]; [reflexivity|]. rewrite S_INR in Iv. pose proof (pos_INR k). lra. }
      rewrite Z. cbn. lra. }
    cbn [length Nat.sub]. change (INR 1) with 1%R. rewrite !J by lra. intro H. injection H as H. lra.
Qed.
Print Assumptions C73_names_refuted.

(** Some values: 2 and 5 occur twice, a missing value once. *)
Definition some_values : list xr := [XFin 5; XNan; XFin 2; XFin 5; XFin 2].
Example C73_mode_example : mode some_values = Ok (XFin 2).
Proof.
  apply C73_mode. split; [cbn; auto|]. split.
  - intros y [<-|[<-|[<-|[<-|[<-|[]]]]]]; count; lia.
  - intros y [<-|[<-|[<-|[<-|[<-|[]]]]]]; intros _; cbn; auto; lra.
Qed.
Example C73_quantile_example : numbers some_values /\ reals some_values = [5; 2; 5; 2]%R /\ quantile (1 / 2) some_values = Ok (XFin (7 / 2)).
Proof.
  assert (N : numbers some_values) by (intros x [<-|[<-|[<-|[<-|[<-|[]]]]]]; eauto). split; [exact N|]. split; [reflexivity|].
  assert (E : py_sorted before (map XFin (reals some_values)) = map XFin [2; 2; 5; 5]%R).
  { cbn. unfold before. cbn. repeat (match goal with |- context [Rleb ?a ?b] => destruct (Rleb_spec a b); try lra end; cbn). reflexivity. }
  rewrite (quantile_joined (1 / 2) _ [2; 2; 5; 5]%R N ltac:(lra) E ltac:(discriminate)). f_equal. f_equal. cbn [length Nat.sub].
  replace (INR 3 * (1 / 2))%R with (3 / 2)%R by (cbn; lra). unfold joined. cbn [length Nat.sub]. destruct (Rleb_spec (INR 3) (3 / 2)) as [H|H]; [cbn in H; lra|].
  assert (I : Int_part (3 / 2) = 1%Z).
  { destruct (base_Int_part (3 / 2)) as [H1 H2]. assert (K1 : (IZR (Int_part (3 / 2)) < IZR 2)%R) by lra. assert (K2 : (IZR 0 < IZR (Int_part (3 / 2)))%R) by lra.
    apply lt_IZR in K1, K2. lia. }
  rewrite I. change (Z.to_nat 1) with 1. cbn [nth INR]. lra.
Qed.
