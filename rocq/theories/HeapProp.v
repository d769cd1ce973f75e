(** The public statements about the heap, derived from [HeapFacts]. *)
From Verif Require Import Base SpecArray BaseFacts ModelHeap HeapFacts SpecHeap.

Section HP.
Context {K V : Type}.
Variable ltb : K -> K -> bool.
Hypothesis Hsw : strict_weak ltb.
Notation node := (K * V)%type.

Lemma is_max_perm n (b b' : list node) : Permutation b b' -> is_max ltb n b -> is_max ltb n b'.
Proof.
  intros P [H1 H2]. split.
  - eapply Permutation_in; eauto.
  - intros m Hm. apply H2. eapply Permutation_in; [apply Permutation_sym; exact P|exact Hm].
Qed.

Lemma heap_run_gen ops :
  forall (h : list node), heap_ok ltb h ->
  exists outs h' b', heap_run ltb h ops = Ok (outs, h') /\ heap_ok ltb h' /\
    pq_run ltb h ops outs b' /\ Permutation b' h'.
Proof.
  assert (G : forall ops (h b : list node), heap_ok ltb h -> Permutation b h ->
    exists outs h' b', heap_run ltb h ops = Ok (outs, h') /\ heap_ok ltb h' /\
    pq_run ltb b ops outs b' /\ Permutation b' h').
  { clear ops. induction ops as [|o ops IH]; intros h b Hh P; cbn [heap_run].
    - exists [], h, b. repeat split; auto. constructor.
    - destruct o as [k v|]; cbn [heap_step].
      + destruct (heap_add_correct ltb Hsw h k v Hh) as [h1 [E1 [P1 O1]]]. rewrite E1. cbn [bind].
        destruct (IH h1 ((k, v) :: b) O1) as [outs [h' [b' [E [O [R Pb]]]]]].
        { etransitivity; [|exact P1]. constructor. exact P. }
        rewrite E. cbn [bind]. exists (None :: outs), h', b'. repeat split; auto. constructor. exact R.
      + destruct h as [|n t].
        * cbn [heap_pop bind]. apply Permutation_sym, Permutation_nil in P. subst b.
          destruct (IH [] [] (heap_ok_nil ltb) (Permutation_refl _)) as [outs [h' [b' [E [O [R Pb]]]]]].
          rewrite E. cbn [bind]. exists (None :: outs), h', b'. repeat split; auto. constructor. exact R.
        * destruct (heap_pop_correct ltb Hsw (n :: t) n t eq_refl Hh) as [h1 [E1 [P1 O1]]].
          rewrite E1. cbn [bind].
          destruct (IH h1 t O1 P1) as [outs [h' [b' [E [O [R Pb]]]]]].
          rewrite E. cbn [bind]. exists (Some n :: outs), h', b'. repeat split; auto.
          apply (pq_pop ltb b n t); auto.
          apply (is_max_perm n (n :: t)); [apply Permutation_sym; exact P|].
          apply (heap_top_max ltb Hsw (n :: t) n Hh eq_refl). }
  intros h Hh. apply (G ops h h Hh). apply Permutation_refl.
Qed.

Lemma heap_queue ops :
  exists outs h b,
    heap_run ltb ([] : list node) ops = Ok (outs, h) /\
    pq_run ltb [] ops outs b /\ Permutation b h /\
    heap_len h = length b /\ heap_is_empty h = (length b =? 0) /\
    (heap_top h = None -> b = []) /\ (forall n, heap_top h = Some n -> is_max ltb n b).
Proof.
  destruct (heap_run_gen ops [] (heap_ok_nil ltb)) as [outs [h [b [E [O [R P]]]]]].
  exists outs, h, b. split; [exact E|]. split; [exact R|]. split; [exact P|].
  assert (L := Permutation_length P).
  split; [unfold heap_len; lia|]. split; [unfold heap_is_empty; rewrite L; reflexivity|]. split.
  - intro Ht. destruct h; [|discriminate]. apply Permutation_sym, Permutation_nil in P. exact P.
  - intros n Hn. apply (is_max_perm n h); [apply Permutation_sym; exact P|].
    apply (heap_top_max ltb Hsw h n O Hn).
Qed.

Lemma heap_drain_gen m :
  forall (h : list node), heap_ok ltb h -> length h = m ->
  exists l, heap_run ltb h (repeat OpPop m) = Ok (map Some l, []) /\
    Permutation l h /\ descending ltb l.
Proof.
  induction m as [|m IH]; intros h Hh Hl.
  - destruct h; [|discriminate]. exists []. simpl. auto.
  - destruct h as [|n t]; [discriminate|]. cbn [repeat heap_run heap_step].
    destruct (heap_pop_correct ltb Hsw (n :: t) n t eq_refl Hh) as [h1 [E1 [P1 O1]]].
    rewrite E1. cbn [bind].
    destruct (IH h1 O1) as [l [E [P D]]].
    { apply Permutation_length in P1. simpl in Hl. lia. }
    rewrite E. cbn [bind]. exists (n :: l). split; [reflexivity|].
    assert (Pt : Permutation l t) by (etransitivity; [exact P|apply Permutation_sym; exact P1]).
    split; [constructor; exact Pt|]. split; [|exact D].
    apply Forall_forall. intros x Hx.
    apply (heap_top_max ltb Hsw (n :: t) n Hh eq_refl). right.
    eapply Permutation_in; eauto.
Qed.

Lemma heap_drain ops outs (h : list node) :
  heap_run ltb [] ops = Ok (outs, h) ->
  exists l, heap_run ltb h (repeat OpPop (length h)) = Ok (map Some l, []) /\
    Permutation l h /\ descending ltb l.
Proof.
  intro E. destruct (heap_run_gen ops [] (heap_ok_nil ltb)) as [outs' [h' [b [E' [O [R P]]]]]].
  rewrite E in E'. injection E' as -> ->. apply heap_drain_gen; auto.
Qed.
End HP.

(** ** Iteration *)
Section It.
Context {K V : Type}.
Notation node := (K * V)%type.

(** A loop whose body leaves the heap object alone visits the rest of the list. *)
Lemma mh_for_plain {S : Type} (h : list node) (body : node -> S -> S) fuel :
  forall i st, length h - i < fuel -> i <= length h ->
  mh_for fuel (fun n m s => Ok (m, body n s)) (mkmh h (At i)) st
  = Ok (mkmh h Exhausted, fold_left (fun s n => body n s) (skipn i h) st).
Proof.
  induction fuel as [|fuel IH]; intros i st Hf Hi; [lia|].
  cbn [mh_for]. unfold mh_next. cbn [mh_iter mh_heap].
  destruct (nth_error h i) as [n|] eqn:E.
  - cbn [bind]. assert (Hlt := nth_error_lt _ _ _ E).
    rewrite IH by lia. f_equal. f_equal.
    assert (Es : skipn i h = n :: skipn (Datatypes.S i) h).
    { clear - E. revert i E. induction h as [|x h IH]; intros [|i] E; simpl in *; try discriminate.
      - congruence.
      - apply IH. exact E. }
    rewrite Es. reflexivity.
  - apply nth_error_None in E. rewrite skipn_all2 by lia. reflexivity.
Qed.

Lemma fold_snoc {A B} (f : A -> B) (l : list A) acc :
  fold_left (fun s n => s ++ [f n]) l acc = acc ++ map f l.
Proof.
  revert acc; induction l as [|x l IH]; intro acc; simpl; [rewrite app_nil_r; reflexivity|].
  rewrite IH, <- app_assoc. reflexivity.
Qed.

Lemma mh_list_all (m : mheap K V) :
  mh_list m = Ok (mkmh (mh_heap m) Exhausted, mh_heap m).
Proof.
  unfold mh_list, mh_iter_. rewrite (mh_for_plain (mh_heap m) (fun n acc => acc ++ [n])) by lia.
  simpl skipn. rewrite (fold_snoc (fun n => n)). simpl. rewrite map_id. reflexivity.
Qed.

Lemma mh_pairs_row (m : mheap K V) :
  mh_pairs m = Ok (mkmh (mh_heap m) Exhausted,
    match mh_heap m with
    | [] => []
    | a :: _ => map (fun b => (a, b)) (mh_heap m)
    end).
Proof.
  destruct m as [h it]. unfold mh_pairs, mh_iter_. cbn [mh_heap].
  destruct h as [|a t]; [reflexivity|].
  set (h := a :: t). unfold h at 1. cbn [length].
  remember (fun (a0 : node) (m1 : mheap K V) (acc : list (node * node)) =>
     mh_for (Datatypes.S (length (mh_heap m1))) (fun b m2 acc2 => Ok (m2, acc2 ++ [(a0, b)]))
       {| mh_heap := mh_heap m1; mh_iter := At 0 |} acc) as body eqn:Eb.
  assert (Hb : body a (mkmh h (At 1)) [] = Ok (mkmh h Exhausted, map (fun b => (a, b)) h)).
  { rewrite Eb. cbn [mh_heap].
    rewrite (mh_for_plain h (fun b acc => acc ++ [(a, b)])) by lia.
    rewrite fold_snoc. reflexivity. }
  clear Eb. cbn [mh_for].
  change (mh_next {| mh_heap := h; mh_iter := At 0 |})
    with (@inl (res (node * mheap K V)) (mheap K V) (Ok (a, mkmh h (At 1)))).
  cbv beta iota. rewrite Hb. cbn [bind mh_for]. reflexivity.
Qed.
End It.
