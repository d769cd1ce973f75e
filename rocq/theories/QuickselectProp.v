(** The public statements about quickselect, derived from [QuickselectFacts]. *)
From Verif Require Import Base SpecArray BaseFacts ModelQuickselect QuickselectFacts.

Lemma nat_ltb_strict_weak : strict_weak Nat.ltb.
Proof.
  split.
  - intros x y H. apply Nat.ltb_lt in H. apply Nat.ltb_ge. lia.
  - intros x y z H1 H2. apply Nat.ltb_ge in H1, H2. apply Nat.ltb_ge. lia.
Qed.

Section S.
Context {K A B : Type}.
Variable ltb : K -> K -> bool.

Lemma fits_intro (data : list K) (e1 : option (list A)) (e2 : option (list B)) n :
  n <= length data -> (forall l, e1 = Some l -> n <= length l) ->
  (forall l, e2 = Some l -> n <= length l) -> fits (mkq data e1 e2) n.
Proof.
  intros H H1 H2. split; [exact H|]. simpl. split.
  - destruct e1; simpl; auto.
  - destruct e2; simpl; auto.
Qed.

Lemma partition_spec data e1 e2 start fin p :
  start <= fin <= length data ->
  (forall l, e1 = Some l -> fin <= length l) -> (forall l, e2 = Some l -> fin <= length l) ->
  exists h data' e1' e2' f,
    partition ltb (@mkq K A B data e1 e2) start fin p = Ok (h, mkq data' e1' e2') /\
    start <= h <= fin /\
    rearranges start fin f /\ moved f data data' /\ moved_opt f e1 e1' /\ moved_opt f e2 e2' /\
    on_range data' start h (fun x => ltb x p = true) /\
    on_range data' h fin (fun x => ltb x p = false).
Proof.
  intros H H1 H2.
  destruct (partition_correct ltb (mkq data e1 e2) start fin p) as [h [st [f [E [Hh [HR [[M1 [M2 M3]] [HA HB]]]]]]]].
  - lia.
  - apply fits_intro; auto. lia.
  - destruct st as [d' e1' e2']. exists h, d', e1', e2', f. simpl in *. auto 12.
Qed.

Lemma quickselect_spec :
  strict_weak ltb ->
  forall data e1 e2 start fin k,
  start <= k < fin -> fin <= length data ->
  (forall l, e1 = Some l -> fin <= length l) -> (forall l, e2 = Some l -> fin <= length l) ->
  exists data' e1' e2' f pk,
    quickselect ltb (@mkq K A B data e1 e2) start fin k = Ok (mkq data' e1' e2') /\
    rearranges start fin f /\ moved f data data' /\ moved_opt f e1 e1' /\ moved_opt f e2 e2' /\
    nth_error data' k = Some pk /\
    on_range data' start k (fun x => ltb pk x = false) /\
    on_range data' k fin (fun x => ltb x pk = false).
Proof.
  intros [Has Hnt] data e1 e2 start fin k Hk Hf H1 H2.
  destruct (quickselect_correct ltb (mkq data e1 e2) start fin k Has Hk)
    as [[d' e1' e2'] [f [E [HR [[M1 [M2 M3]] O]]]]].
  - apply fits_intro; auto.
  - simpl in *. destruct (nth_error_ex d' k) as [pk Hpk]; [destruct M1; lia|].
    destruct (O Hnt pk Hpk) as [O1 O2].
    exists d', e1', e2', f, pk. auto 12.
Qed.

Lemma quickselect_terminates :
  asym ltb ->
  forall data e1 e2 start fin k,
  fin <= length data ->
  (forall l, e1 = Some l -> fin <= length l) -> (forall l, e2 = Some l -> fin <= length l) ->
  exists data' e1' e2' f,
    quickselect ltb (@mkq K A B data e1 e2) start fin k = Ok (mkq data' e1' e2') /\
    rearranges start fin f /\ moved f data data' /\ moved_opt f e1 e1' /\ moved_opt f e2 e2'.
Proof.
  intros Has data e1 e2 start fin k Hf H1 H2.
  assert (D : k < start \/ fin <= k \/ start <= k < fin) by lia.
  destruct D as [D|[D|D]].
  - exists data, e1, e2, (fun i => i). rewrite quickselect_out by lia.
    split; [reflexivity|]. split; [apply rearranges_id|]. split; [apply moved_id|].
    split; apply moved_opt_id.
  - exists data, e1, e2, (fun i => i). rewrite quickselect_out by lia.
    split; [reflexivity|]. split; [apply rearranges_id|]. split; [apply moved_id|].
    split; apply moved_opt_id.
  - destruct (quickselect_correct ltb (mkq data e1 e2) start fin k Has D)
      as [[d' e1' e2'] [f [E [HR [[M1 [M2 M3]] O]]]]].
    + apply fits_intro; auto.
    + exists d', e1', e2', f. auto.
Qed.

Lemma quickselect_outside data e1 e2 start fin k :
  k < start \/ fin <= k ->
  quickselect ltb (@mkq K A B data e1 e2) start fin k = Ok (mkq data e1 e2).
Proof. apply quickselect_out. Qed.

Lemma filter_length_le_all (f : K -> bool) l : length (filter f l) <= length l.
Proof. induction l as [|x l IH]; simpl; auto. destruct (f x); simpl; lia. Qed.

Lemma filter_none (f : K -> bool) l : Forall (fun x => f x = false) l -> filter f l = [].
Proof. induction 1 as [|x l Hx Hl IH]; simpl; auto. rewrite Hx. exact IH. Qed.

Lemma filter_all (f : K -> bool) l : Forall (fun x => f x = true) l -> filter f l = l.
Proof. induction 1 as [|x l Hx Hl IH]; simpl; auto. rewrite Hx, IH. reflexivity. Qed.

Lemma Permutation_filter_length (f : K -> bool) l l' :
  Permutation l l' -> length (filter f l) = length (filter f l').
Proof.
  induction 1; simpl; auto.
  - destruct (f x); simpl; auto.
  - destruct (f x), (f y); simpl; auto.
  - congruence.
Qed.

Lemma quickselect_rank :
  strict_weak ltb ->
  forall data e1 e2 start fin k,
  start <= k < fin -> fin <= length data ->
  (forall l, e1 = Some l -> fin <= length l) -> (forall l, e2 = Some l -> fin <= length l) ->
  exists data' e1' e2' pk,
    quickselect ltb (@mkq K A B data e1 e2) start fin k = Ok (mkq data' e1' e2') /\
    nth_error data' k = Some pk /\
    length (filter (fun x => ltb x pk) (slice data start fin)) <= k - start
      < length (filter (fun x => negb (ltb pk x)) (slice data start fin)).
Proof.
  intros Hsw data e1 e2 start fin k Hk Hf H1 H2.
  destruct (quickselect_spec Hsw data e1 e2 start fin k Hk Hf H1 H2)
    as [d' [e1' [e2' [f [pk [E [HR [M1 [M2 [M3 [Epk [O1 O2]]]]]]]]]]]].
  exists d', e1', e2', pk. split; [exact E|]. split; [exact Epk|].
  assert (P := moved_slice_perm start fin f data d' HR Hf M1).
  assert (Ld : length d' = length data) by apply M1.
  rewrite !(Permutation_filter_length _ _ _ P).
  rewrite (slice_split d' start k fin) by lia.
  rewrite !filter_app, !app_length.
  apply on_range_slice in O1. apply on_range_slice in O2.
  split.
  - rewrite (filter_none _ (slice d' k fin)) by exact O2. simpl.
    rewrite Nat.add_0_r. etransitivity; [apply filter_length_le_all|].
    rewrite slice_length; lia.
  - rewrite (filter_all _ (slice d' start k)).
    + rewrite slice_length by lia.
      rewrite (slice_cons d' k fin pk) by (auto; lia).
      simpl. rewrite (asym_irrefl ltb pk) by apply Hsw. simpl. lia.
    + eapply Forall_impl; [|exact O1]. simpl. intros x Hx. rewrite Hx. reflexivity.
Qed.

End S.
