(** Runs with several threads. *)
From Coq Require Import String Wellfounded.
From Verif Require Import Base BaseFacts Dict DictFacts ModelUnionFind ModelCore ModelObjects SpecObjects ObjectFacts
  ObjectProp ModelValidate SpecValidate ValidateProp ModelLearn SpecLearn LearnLogic LearnFacts LearnStable LearnProp LearnFit
  LearnHistory LearnResult ModelParallel SpecParallel.
Open Scope nat_scope.
Open Scope list_scope.

(** *** The sequential run *)
Lemma run_jobs_all {S : Type} (X : list S) c after opens : forall k parts,
  run_jobs X (fun _ => c) k opens after = Ok parts <->
  after = None /\ Forall2 (fun ids p => run_clustering X (fun _ => c) 0 ids = Ok p) opens parts.
Proof.
  induction opens as [|ids opens IH]; intros k parts; simpl.
  - destruct after; split.
    + discriminate.
    + intros [H _]. discriminate.
    + intros [= <-]. split; [reflexivity|constructor].
    + intros [_ H]. inversion H. reflexivity.
  - change (run_clustering X (fun _ => c) k ids) with (run_clustering X (fun _ => c) 0 ids).
    destruct (run_clustering X (fun _ => c) 0 ids) as [p|e] eqn:E; cbn [bind]; [|split; [discriminate|intros [_ H]; inversion H; congruence]].
    specialize (IH (Datatypes.S k)). destruct (run_jobs X (fun _ => c) (Datatypes.S k) opens after) as [ps|e] eqn:R; cbn [bind]; split.
    + intros [= <-]. destruct (proj1 (IH ps) eq_refl) as [A B]. split; [exact A|]. constructor; assumption.
    + intros [A H]. inversion H as [|? p' ? ps' H1 H2]; subst. rewrite E in H1. injection H1 as <-.
      assert (Z : Ok ps = Ok ps') by (apply IH; split; [reflexivity|exact H2]). injection Z as <-. reflexivity.
    + discriminate.
    + intros [A H]. inversion H as [|? p' ? ps' H1 H2]; subst. assert (Z : @Err (list (list nat * list Z)) e = Ok ps') by (apply IH; auto). discriminate.
Qed.

Lemma run_jobs_raises {S : Type} (X : list S) c opens after k e : may_raise X c opens after e ->
  exists e', run_jobs X (fun _ => c) k opens after = Err e'.
Proof.
  intro M. destruct (run_jobs X (fun _ => c) k opens after) as [ps|e'] eqn:R; [|eauto].
  apply run_jobs_all in R. destruct R as [-> F]. destruct M as [[ids [I E]]|M]; [|discriminate].
  exfalso. induction F as [|a p l ps H F IH]; [exact I|]. destruct I as [->|I]; [congruence|auto].
Qed.

Section Parallel.
Context {F O : Type}.
Variable is_nan : F -> bool.
Variable is_inf : F -> bool.
Variable to_float : O -> res F.
Notation point := (ndarray F O).
Variable classes : nat -> class.
Variable beh : nat -> behaviour F O.
Variables c_tcover c_tclust c_failsafe : nat.
Hypothesis CO : classes_ok classes beh c_tcover c_tclust c_failsafe.
Notation inv := (inv classes).
Notation rely := (rely classes).
Notation adv := (adv classes).
Notation ok := (ok classes).
Notation cover_of := (cover_of classes beh).
Notation clust_of := (clust_of is_nan is_inf to_float classes beh).
Notation cloneable := (cloneable classes).
Notation shares := (shares beh).
Notation keep_share := (shares_kept classes beh c_tcover c_tclust c_failsafe CO).
Notation copy_share := (copy_shares classes beh c_tcover c_tclust c_failsafe CO).
Notation copy_clust := (copy_clust_of is_nan is_inf to_float classes beh c_tcover c_tclust c_failsafe CO).
Notation keep_clust := (clust_of_kept is_nan is_inf to_float classes beh).

Lemma clone_run lim l h rank h' r : inv h rank -> cloneable h l -> rank l + 1 < lim -> run (pclone classes lim (VRef l)) h = (h', r) ->
  exists c rank', r = Ok c /\ copy classes h l h' c /\ length h <= c < length h' /\ rank' c = rank l /\ inv h' rank' /\ kept h h' /\
    same_rank h rank rank' /\ forall l', l' < length h -> nth_error h' l' = nth_error h l'.
Proof.
  intros I Cl Hl E.
  assert (H : ok (pclone classes lim (VRef l)) (fun _ => True) h rank (fun r _ h' rank' =>
    exists c, r = Ok c /\ copy classes h l h' c /\ length h <= c < length h' /\ rank' c = rank l /\ inv h' rank' /\ kept h h' /\
    same_rank h rank rank' /\ forall l', l' < length h -> nth_error h' l' = nth_error h l')).
  { apply ok_clone; [exact I|eapply cloneable_lt, Cl|exact Hl| |].
    - intros c h2 rank2 _ Cp L1 L2 R I2 A S. exists c. destruct A as [K [_ [SR _]]]. repeat (split; [auto|]). auto.
    - intros e h1 rank1 N. contradiction. }
  destruct (ok_run _ _ _ _ _ _ I H) as [own' [rank' [[c Q] _]]]. rewrite E in Q. exists c, rank'. exact Q.
Qed.

Section Jobs.
Variables (fitc : nat -> list point -> prog unit) (bound : nat).
Hypothesis FW : fit_works is_nan is_inf to_float classes beh fitc bound.
Variables (lim : nat) (X : list point) (cl : nat) (after : option exn).
Variable c : list point -> res (list Z).
Variables (h0 : heap) (rank0 : nat -> nat).
Hypothesis I0 : inv h0 rank0.
Hypothesis Cl0 : cloneable h0 cl.
Hypothesis C0 : clust_of h0 cl c.
Hypothesis S0 : forall l, ~ shares h0 cl l.
Hypothesis En0 : enough beh bound h0 rank0 cl.
Hypothesis Hl0 : rank0 cl + 1 < lim.
Notation step := (step classes fitc lim X cl after).
Notation steps := (steps classes fitc lim X cl after).
Notation outcome := (outcome after).

Definition good_task (own : nat -> Prop) (h : heap) (rank : nat -> nat) (ids : list nat) (p : prog (list Z)) : Prop :=
  exists xs hj rankj, map_res (rd X) ids = Ok xs /\ rely own hj rankj h rank /\
    ok p own hj rankj (fun x _ _ _ => x = c xs) /\ forall l, own l -> l < length hj.

Definition good (opens : list (list nat)) (s : pstate) : Prop :=
  exists rank owns, inv (ps_heap s) rank /\ kept h0 (ps_heap s) /\ same_rank h0 rank0 rank /\
    opens = map fst (ps_tasks s) ++ ps_pending s /\
    (forall j ids p, nth_error (ps_tasks s) j = Some (ids, p) -> good_task (owns j) (ps_heap s) rank ids p) /\
    (forall j k l, j < length (ps_tasks s) -> k < length (ps_tasks s) -> owns j l -> owns k l -> j = k) /\
    (forall e, ps_stop s = Some e -> may_raise X c opens after e).

Lemma good_start opens : good opens (start h0 opens).
Proof.
  exists rank0, (fun _ _ => False). split; [exact I0|]. split; [apply kept_refl|]. split; [intros l _; reflexivity|]. split; [reflexivity|].
  split; [intros [|j] ids p H; discriminate|]. split; [intros j k l H; inversion H|]. intros e H. discriminate.
Qed.

Lemma good_task_others (own : nat -> Prop) h rank h' rank' ids p : inv h' rank' -> kept h h' -> same_rank h rank rank' ->
  (forall l, own l -> l < length h -> nth_error h' l = nth_error h l) -> good_task own h rank ids p -> good_task own h' rank' ids p.
Proof.
  intros I K SR U [xs [hj [rj [E [R [P B]]]]]]. exists xs, hj, rj. split; [exact E|]. split; [|auto].
  eapply rely_trans; [exact R|]. split; [exact K|]. split; [exact I|]. split; [exact SR|exact U].
Qed.

Lemma task_bound (own : nat -> Prop) h rank ids p l : good_task own h rank ids p -> own l -> l < length h.
Proof. intros [xs [hj [rj [_ [[K _] [_ B]]]]]] Ow. apply kept_length in K. specialize (B l Ow). lia. Qed.

Lemma nth_middle {A : Type} (t1 t2 : list A) x : nth_error (t1 ++ x :: t2) (length t1) = Some x.
Proof. rewrite nth_error_app2, Nat.sub_diag by lia. reflexivity. Qed.
Lemma nth_other {A : Type} (t1 t2 : list A) x y j : j <> length t1 -> nth_error (t1 ++ x :: t2) j = nth_error (t1 ++ y :: t2) j.
Proof.
  intro N. destruct (Nat.lt_ge_cases j (length t1)) as [L|L]; [rewrite !nth_error_app1 by exact L; reflexivity|].
  rewrite !nth_error_app2 by exact L. destruct (j - length t1) as [|n] eqn:E; [lia|reflexivity].
Qed.

Lemma good_step opens s s' : good opens s -> step s s' -> good opens s'.
Proof.
  intros [rank [owns [I [K [SR [Eo [T [D St]]]]]]]] Hs. destruct Hs as [h ids pending tasks xs c1 h' Ex Ec|h ids pending tasks e Ex
    |h ids pending tasks xs e h' Ex Ec|h tasks e Ea|h pending t1 ids upd next t2 s]; cbn [ps_heap ps_pending ps_tasks ps_stop] in *.
  - assert (L : cl < length h0) by (eapply cloneable_lt, Cl0).
    destruct (clone_run lim cl h rank h' (Ok c1) I) as [c2 [rank' [E [Cp [[L1 L2] [Rc [I' [K' [SR' U]]]]]]]]];
      [eapply kept_cloneable; eassumption|rewrite SR by exact L; exact Hl0|exact Ec|]. injection E as <-.
    assert (Ln : forall j, j < length tasks -> forall l, owns j l -> l < length h).
    { intros j Lj l Ow. destruct (nth_error tasks j) as [[i p]|] eqn:N; [|apply nth_error_None in N; lia].
      eapply task_bound; [eapply T, N|exact Ow]. }
    exists rank', (fun j => if j =? length tasks then eq c1 else owns j). cbn [ps_heap ps_pending ps_tasks ps_stop].
    split; [exact I'|]. split; [eapply kept_trans; eassumption|]. split.
    { intros l Ll. rewrite SR'; [apply SR, Ll|]. apply kept_length in K. lia. }
    split; [rewrite map_app; simpl; rewrite <- app_assoc; exact Eo|]. split; [|split].
    + intros j i p N. destruct (j =? length tasks) eqn:Ej.
      * apply Nat.eqb_eq in Ej. subst j. rewrite nth_middle in N. injection N as <- <-.
        exists xs, h', rank'. split; [exact Ex|]. split; [apply rely_refl, I'|]. split; [|intros l <-; exact L2].
        apply (job_ok is_nan is_inf to_float classes beh fitc bound FW).
        -- exact I'.
        -- apply (copy_clust h rank h' rank' cl); [exact I|exact I'|exact K'|exact Cp|].
           apply (keep_clust h0 rank0 h rank); assumption.
        -- reflexivity.
        -- intros l Sh. exfalso. apply (S0 l). apply (keep_share h0 rank0 h rank); try assumption.
           apply (copy_share h rank h' rank' cl c1); assumption.
        -- eapply enough_copy; [exact Cp|exact Rc|]. destruct En0 as [Hb|Hb]; [left; rewrite SR by exact L; exact Hb|right].
           eapply kept_behaves; eassumption.
      * apply Nat.eqb_neq in Ej. assert (Lj : j < length tasks).
        { pose proof (nth_error_lt _ _ _ N) as Z. rewrite app_length in Z. simpl in Z. lia. }
        rewrite nth_error_app1 in N by exact Lj. eapply good_task_others; [exact I'|exact K'|exact SR'| |apply T, N].
        intros l _ Ll. apply U, Ll.
    + intros j k l Lj Lk. rewrite app_length in Lj, Lk. simpl in Lj, Lk.
      destruct (Nat.eqb_spec j (length tasks)) as [Ej|Ej]; destruct (Nat.eqb_spec k (length tasks)) as [Ek|Ek].
      * intros _ _. lia.
      * intros <- Ow. specialize (Ln k ltac:(lia) c1 Ow). lia.
      * intros Ow <-. specialize (Ln j ltac:(lia) c1 Ow). lia.
      * apply D; lia.
    + intros e H. discriminate.
  - exists rank, owns. split; [exact I|]. split; [exact K|]. split; [exact SR|]. split; [exact Eo|]. split; [exact T|]. split; [exact D|].
    intros e' [= <-]. left. exists ids. split; [rewrite Eo; apply in_or_app; right; left; reflexivity|].
    unfold run_clustering. rewrite Ex. reflexivity.
  - assert (L : cl < length h0) by (eapply cloneable_lt, Cl0).
    destruct (clone_run lim cl h rank h' (Err e) I) as [c2 [rank' [E _]]];
      [eapply kept_cloneable; eassumption|rewrite SR by exact L; exact Hl0|exact Ec|]. discriminate.
  - exists rank, owns. split; [exact I|]. split; [exact K|]. split; [exact SR|]. split; [exact Eo|]. split; [exact T|]. split; [exact D|].
    intros e' [= <-]. right. exact Ea.
  - destruct (T (length t1) ids (Act upd next) (nth_middle _ _ _)) as [xs [hj [rj [Ex [R [P B]]]]]].
    destruct (P h rank R) as [own' [rank' [[K' [I' [SR' [U [G1 G2]]]]] P']]].
    assert (Lo : forall j, j < length (t1 ++ (ids, Act upd next) :: t2) -> forall l, owns j l -> l < length h).
    { intros j Lj l Ow. destruct (nth_error (t1 ++ (ids, Act upd next) :: t2) j) as [[i p]|] eqn:N; [|apply nth_error_None in N; lia].
      eapply task_bound; [eapply T, N|exact Ow]. }
    assert (Le : length (t1 ++ (ids, Act upd next) :: t2) = length (t1 ++ (ids, next h) :: t2)) by (rewrite !app_length; reflexivity).
    assert (Lt : length t1 < length (t1 ++ (ids, next h) :: t2)) by (rewrite app_length; simpl; lia).
    exists rank', (fun j => if j =? length t1 then own' else owns j). cbn [ps_heap ps_pending ps_tasks ps_stop].
    split; [exact I'|]. split; [eapply kept_trans; eassumption|]. split.
    { intros l Ll. rewrite SR'; [apply SR, Ll|]. apply kept_length in K. lia. }
    split; [rewrite Eo, !map_app; reflexivity|]. split; [|split].
    + intros j i p N. destruct (j =? length t1) eqn:Ej.
      * apply Nat.eqb_eq in Ej. subst j. rewrite nth_middle in N. injection N as <- <-.
        exists xs, (upd h), rank'. split; [exact Ex|]. split; [apply rely_refl, I'|]. split; [exact P'|].
        intros l Ow. destruct (G2 l Ow) as [Z|Z]; [|lia]. apply kept_length in K'. specialize (Lo (length t1) ltac:(lia) l Z). lia.
      * apply Nat.eqb_neq in Ej. assert (Lj : j < length (t1 ++ (ids, next h) :: t2)) by (eapply nth_error_lt, N).
        rewrite (nth_other t1 t2 _ (ids, Act upd next) j Ej) in N.
        eapply good_task_others; [exact I'|exact K'|exact SR'| |apply T, N].
        intros l Ow Ll. apply U; [exact Ll|]. intro Z. apply Ej. apply (D j (length t1) l); [lia|lia|exact Ow|exact Z].
    + intros j k l Lj Lk. destruct (Nat.eqb_spec j (length t1)) as [Ej|Ej]; destruct (Nat.eqb_spec k (length t1)) as [Ek|Ek].
      * intros _ _. lia.
      * intros Z Ow. destruct (G2 l Z) as [Y|Y]; [|specialize (Lo k ltac:(lia) l Ow); lia].
        subst j. apply (D (length t1) k l); [lia|lia|exact Y|exact Ow].
      * intros Ow Z. destruct (G2 l Z) as [Y|Y]; [|specialize (Lo j ltac:(lia) l Ow); lia].
        subst k. apply (D j (length t1) l); [lia|lia|exact Ow|exact Y].
      * apply D; lia.
    + exact St.
Qed.

Lemma good_steps opens s : steps (start h0 opens) s -> good opens s.
Proof.
  intro H. remember (start h0 opens) as s0 eqn:E. induction H as [s|s1 s2 s3 H IH Hs]; [subst; apply good_start|].
  eapply good_step; [apply IH, E|exact Hs].
Qed.

Lemma good_done opens s parts : good opens s -> outcome s (Ok parts) -> run_jobs X (fun _ => c) 0 opens after = Ok parts.
Proof.
  intros [rank [owns [_ [_ [_ [Eo [T _]]]]]]] H. inversion H as [ps Ep Ea Es F2 E| |]. subst ps. rewrite Ep, app_nil_r in Eo.
  apply run_jobs_all. split; [exact Ea|]. rewrite Eo. clear Eo Ep H.
  revert owns T. induction F2 as [|[i p] [i' q] tasks parts' [E1 E2] F2 IH]; intros owns T; simpl; constructor.
  - simpl in E1, E2. subst i' p. destruct (T 0 i (Ret (Ok q)) eq_refl) as [xs [hj [rj [Ex [_ [P _]]]]]]. simpl in P.
    unfold run_clustering. rewrite Ex. cbn [bind]. rewrite <- P. reflexivity.
  - apply (IH (fun j => owns (S j))). intros j i2 p2 N. apply (T (S j)), N.
Qed.

Lemma good_failed opens s e : good opens s -> outcome s (Err e) -> may_raise X c opens after e.
Proof.
  intros [rank [owns [_ [_ [_ [Eo [T [_ St]]]]]]]] H. inversion H as [|ids e' Hin E|e' Hs E]; subst e'; [|apply St, Hs].
  apply In_nth_error in Hin. destruct Hin as [j N]. destruct (T j ids _ N) as [xs [hj [rj [Ex [_ [P _]]]]]]. simpl in P.
  left. exists ids. split.
  - rewrite Eo. apply in_or_app. left. apply nth_error_In in N. apply in_map_iff. exists (ids, Ret (Err e)). auto.
  - unfold run_clustering. rewrite Ex. cbn [bind]. rewrite <- P. reflexivity.
Qed.

Theorem every_schedule opens s r : steps (start h0 opens) s -> outcome s r ->
  (forall parts, r = Ok parts <-> run_jobs X (fun _ => c) 0 opens after = Ok parts) /\
  (forall e, r = Err e -> may_raise X c opens after e) /\
  kept h0 (ps_heap s).
Proof.
  intros H Ho. pose proof (good_steps _ _ H) as G. split; [|split].
  - intro parts. split; [intros ->; eapply good_done; eassumption|]. intro R. destruct r as [p|e].
    + rewrite (good_done _ _ _ G Ho) in R. exact R.
    + destruct (run_jobs_raises X c opens after 0 e (good_failed _ _ _ G Ho)) as [e' E]. congruence.
  - intros e ->. eapply good_failed; eassumption.
  - destruct G as [rank [owns [_ [K _]]]]. exact K.
Qed.

Lemma schedule_fine opens s : steps (start h0 opens) s -> fine classes h0 (ps_heap s) rank0.
Proof. intro H. destruct (good_steps _ _ H) as [rank [owns [I [K [SR _]]]]]. exists rank. auto. Qed.
End Jobs.

(** *** Every run ends *)
Section Ends.
Variables (fitc : nat -> list point -> prog unit) (lim : nat) (X : list point) (cl : nat) (after : option exn).
Notation step := (step classes fitc lim X cl after).
Notation steps := (steps classes fitc lim X cl after).
Notation outcome := (outcome after).

Lemma progress s : (exists s', step s s') \/ exists r, outcome s r.
Proof.
  destruct s as [h pending tasks st].
  assert (T : (exists t1 ids upd next t2, tasks = t1 ++ (ids, Act upd next) :: t2) \/
    (exists ids e, In (ids, Ret (Err e)) tasks) \/
    exists parts, Forall2 (fun t p => fst t = fst p /\ snd t = Ret (Ok (snd p))) tasks parts).
  { induction tasks as [|[ids [[l|e]|upd next]] tasks IH].
    - right. right. exists []. constructor.
    - destruct IH as [[t1 [i [u [n [t2 ->]]]]]|[[i [e H]]|[parts H]]].
      + left. exists ((ids, Ret (Ok l)) :: t1), i, u, n, t2. reflexivity.
      + right. left. exists i, e. right. exact H.
      + right. right. exists ((ids, l) :: parts). constructor; [auto|exact H].
    - right. left. exists ids, e. left. reflexivity.
    - left. exists [], ids, upd, next, tasks. reflexivity. }
  destruct T as [[t1 [ids [upd [next [t2 ->]]]]]|[[ids [e H]]|[parts H]]].
  - left. eexists. constructor.
  - right. exists (Err e). eapply out_failed. exact H.
  - destruct st as [e|]; [right; exists (Err e); apply out_stopped; reflexivity|].
    destruct pending as [|ids pending].
    + destruct after as [e|] eqn:Ea; [left; eexists; apply st_generator; reflexivity|].
      right. exists (Ok parts). apply out_done; auto.
    + left. destruct (map_res (rd X) ids) as [xs|e] eqn:Ex; [|eexists; apply st_index; exact Ex].
      destruct (run (pclone classes lim (VRef cl)) h) as [h' [c|e]] eqn:Ec; eexists;
        [eapply st_dispatch|eapply st_clone]; eassumption.
Qed.

Definition prog_step {A : Type} (p' p : prog A) : Prop := exists upd next h, p = Act upd next /\ p' = next h.
Lemma prog_step_wf {A : Type} (p : prog A) : Acc prog_step p.
Proof.
  induction p as [r|upd next IH]; constructor; intros p' [u [n [h [E ->]]]]; [discriminate|]. injection E as _ <-. apply IH.
Qed.
Definition task_step (ts' ts : list (list nat * prog (list Z))) : Prop :=
  exists t1 ids p p' t2, ts = t1 ++ (ids, p) :: t2 /\ ts' = t1 ++ (ids, p') :: t2 /\ prog_step p' p.
Lemma task_step_wf ts : Acc task_step ts.
Proof.
  induction ts as [|[ids p] ts IH].
  - constructor. intros ts' [t1 [i [q [q' [t2 [E _]]]]]]. destruct t1; discriminate.
  - revert ts IH. induction (prog_step_wf p) as [p _ IHp]. intros ts H. induction H as [ts Hts IHts].
    constructor. intros ts' [t1 [i [q [q' [t2 [E [-> P]]]]]]]. destruct t1 as [|t t1]; simpl in *.
    + injection E as <- <- <-. apply IHp; [exact P|]. constructor. exact Hts.
    + injection E as <- ->. apply IHts. exists t1, i, q, q', t2. auto.
Qed.

Definition left_to_do (s : pstate) : nat := length (ps_pending s) + match ps_stop s with None => 1 | Some _ => 0 end.
Theorem no_infinite_run s : Acc (fun s' s => step s s') s.
Proof.
  assert (G : forall n s, left_to_do s < n -> Acc (fun s' s => step s s') s); [|apply (G (S (left_to_do s))); lia].
  clear s. induction n as [|n IH]; [intros s H; inversion H|]. intros [h pending tasks st]. revert h.
  induction (task_step_wf tasks) as [tasks _ IHt]. intros h Hn. constructor. intros s' Hs.
  inversion Hs as [? ids ? ? xs c h' Ex Ec|? ids ? ? e Ex|? ids ? ? xs e h' Ex Ec|? ? e Ea|? ? t1 ids upd next t2 ?]; subst;
    unfold left_to_do in *; cbn [ps_pending ps_stop length] in *.
  - apply IH. cbn [ps_pending ps_stop length]. lia.
  - apply IH. cbn [ps_pending ps_stop length]. lia.
  - apply IH. cbn [ps_pending ps_stop length]. lia.
  - apply IH. cbn [ps_pending ps_stop length]. lia.
  - apply IHt; [|cbn [ps_pending ps_stop]; exact Hn]. exists t1, ids, (Act upd next), (next h), t2. split; [reflexivity|]. split; [reflexivity|].
    exists upd, next, h. auto.
Qed.

Lemma steps_trans s1 s2 s3 : steps s1 s2 -> steps s2 s3 -> steps s1 s3.
Proof. intros A B. induction B as [s|a b d B IH S]; [exact A|]. eapply ss_step; [apply IH, A|exact S]. Qed.

Theorem every_run_ends s : exists s' r, steps s s' /\ outcome s' r.
Proof.
  induction (no_infinite_run s) as [s _ IH]. destruct (progress s) as [[s' H]|[r H]].
  - destruct (IH s' H) as [s2 [r [A B]]]. exists s2, r. split; [|exact B]. eapply steps_trans; [|exact A].
    eapply ss_step; [apply ss_refl|exact H].
  - exists s, r. split; [apply ss_refl|exact H].
Qed.
End Ends.

(** *** [mapper_labels] and [MapperAlgorithm.fit] *)
Lemma cover_run lim l cov y h rank : inv h rank -> cover_of h (VRef l) cov -> rank l < lim ->
  exists h1 rank1, run (cover_apply classes beh lim l y) h = (h1, Ok (cov y)) /\ inv h1 rank1 /\ kept h h1 /\ same_rank h rank rank1.
Proof.
  intros I C Hl.
  assert (H : ok (prg g <- cover_apply classes beh lim l y; lift (Ok g)) (fun _ => True) h rank (fun r _ h1 rank1 =>
    r = Ok (cov y) /\ inv h1 rank1 /\ kept h h1 /\ same_rank h rank rank1)).
  { apply (bind_cover classes beh _ _ _ CO) with (cov := cov); [exact I|exact C|exact Hl|]. intros h1 rank1 [K [I1 [SR _]]]. simpl. auto. }
  destruct (ok_run _ _ _ _ _ _ I H) as [own' [rank' [[E Q] _]]]. rewrite run_bind in E, Q.
  destruct (run (cover_apply classes beh lim l y) h) as [h1 [g|e]]; simpl in *; [|discriminate]. injection E as ->. eauto.
Qed.

Section Labels.
Variables (fitc : nat -> list point -> prog unit) (bound : nat).
Hypothesis FW : fit_works is_nan is_inf to_float classes beh fitc bound.

Theorem par_labels_ok lim X y cover cov cl c h rank h' r :
  inv h rank -> cover_of h (VRef cover) cov -> rank cover < lim ->
  cloneable h cl -> clust_of h cl c -> (forall l, ~ shares h cl l) -> enough beh bound h rank cl -> rank cl + 1 < lim ->
  par_labels classes beh fitc lim X y cover cl h h' r ->
  (forall lbls, r = Ok lbls <-> pure_labels X y cov c = Ok lbls) /\ fine classes h h' rank.
Proof.
  intros I Cv Hv Cl C Sh En Hl P. destruct (cover_run lim cover cov y h rank I Cv Hv) as [h1 [rank1 [E [I1 [K1 SR1]]]]].
  destruct P as [h2 e E2|h2 opens s r E2 St Ho]; rewrite E in E2; [discriminate|]. injection E2 as <- <-.
  pose proof (cloneable_lt _ _ _ Cl) as L.
  assert (Cl1 : cloneable h1 cl) by (eapply kept_cloneable; eassumption).
  assert (C1 : clust_of h1 cl c) by (apply (keep_clust h rank h1 rank1); assumption).
  assert (Sh1 : forall l, ~ shares h1 cl l) by (intros l Z; apply (Sh l); apply (keep_share h rank h1 rank1); assumption).
  assert (En1 : enough beh bound h1 rank1 cl).
  { destruct En as [Z|Z]; [left; rewrite SR1 by exact L; exact Z|right; eapply kept_behaves; eassumption]. }
  assert (Hl1 : rank1 cl + 1 < lim) by (rewrite SR1 by exact L; exact Hl).
  destruct (every_schedule fitc bound FW lim (items X) cl (stops (cov y)) c h1 rank1 I1 Cl1 C1 Sh1 En1 Hl1 _ _ _ St Ho) as [A [B K]].
  split.
  - intro lbls. unfold pure_labels. destruct (run_jobs (items X) (fun _ => c) 0 (yields (cov y)) (stops (cov y))) as [parts|e] eqn:R.
    + rewrite (proj2 (A parts) eq_refl). reflexivity.
    + destruct r as [parts|e']; [specialize (proj1 (A parts) eq_refl); discriminate|]. simpl. split; discriminate.
  - destruct (schedule_fine fitc bound FW lim (items X) cl (stops (cov y)) c h1 rank1 I1 Cl1 C1 Sh1 En1 Hl1 _ _ St) as [rank2 [I2 [K2 SR2]]].
    exists rank2. split; [exact I2|]. split; [eapply kept_trans; eassumption|]. intros l Ll. apply kept_length in K1. rewrite SR2 by lia. apply SR1, Ll.
Qed.
End Labels.

Theorem par_algorithm_ok lim m X y cov c fs h rank h' r :
  inv h rank -> mapper_of is_nan is_inf to_float classes beh h m cov c -> rank m + 4 < lim ->
  attr h m "failsafe" = Some fs -> truthy fs = false -> (forall q l, attr h m "clustering" = Some (VRef q) -> ~ shares h q l) ->
  par_algorithm_fit is_nan is_inf to_float classes beh c_tcover c_tclust c_failsafe lim m X y h h' r ->
  match graph_fun is_nan is_inf to_float X y cov c with
  | Ok g => r = Ok tt /\ attr h' m "graph_" = Some (VGraph g)
  | Err _ => exists e, r = Err e
  end.
Proof.
  intros I [B [vc [vk [fs' [vb [nj [c0 [A1 [Cv [A2 [Ck [A3 [A4 [A5 Ec]]]]]]]]]]]]]] Hl Af Tf Sh P.
  rewrite Af in A3. injection A3 as <-. rewrite Tf in Ec. subst c0.
  pose proof (fit_clust_works is_nan is_inf to_float classes beh c_tcover c_tclust c_failsafe CO lim ltac:(lia)) as FW.
  pose proof (ma_prepare_ok is_nan is_inf to_float classes beh c_tcover c_tclust c_failsafe CO (lim - 3) lim m X y vc cov vk c fs vb nj
    (fun _ => True) h rank I Logic.I B A1 Cv A2 Ck Af A4 A5 (fun _ _ _ _ => Logic.I) ltac:(lia) ltac:(lia)) as Pr.
  destruct (ok_run _ _ _ _ _ _ I Pr) as [own1 [rank1 [Q _]]]. clear Pr. unfold prep_post in Q. rewrite Tf in Q.
  unfold graph_fun. destruct (validate is_nan is_inf to_float X (arg_y X y)) as [[X' y']|e] eqn:V; cbn [bind fst snd].
  - destruct Q as [cover [cl [E [[I1 [L1 [_ [Cv1 [Rv1 [Cl1 [C1 [_ [Rk1 En1]]]]]]]]] S1]]]].
    destruct P as [h2 e E2|h1 X2 y2 cover2 cl2 h2 r E2 Pl]; rewrite E2 in *; cbn [fst snd] in *; [discriminate|].
    injection E as -> -> -> ->.
    assert (Sh1 : forall l, ~ shares h1 cl l).
    { intros l Z. destruct (S1 eq_refl l Z) as [q [-> Zq]]. exact (Sh q l A2 Zq). }
    destruct (par_labels_ok _ _ FW lim X' y' cover cov cl c h1 rank1 h2 r I1 Cv1 ltac:(lia) Cl1 C1 Sh1 En1 Rk1 Pl) as [R [rank2 [I2 [K2 _]]]].
    unfold pure_graph. destruct (pure_labels X' y' cov c) as [lbls|e] eqn:EL.
    + rewrite (proj2 (R lbls) eq_refl). cbn [bind]. rewrite (lift_bind (Ok lbls)). rewrite lift_bind.
      destruct (graph_of_labels lbls) as [g|e]; [|cbn; eauto].
      destruct (pure_labels_arr _ _ _ _ _ (validate_arr _ _ _ _ _ _ _ V) EL) as [rs [d [_ Ed]]].
      assert (H : ok (ma_finish m X' g) (fun _ => True) h2 rank2 (fun x _ h3 _ => x = Ok tt /\ attr h3 m "graph_" = Some (VGraph g))).
      { unfold ma_finish. apply kept_length in K2.
        apply bind_put; [exact I2|lia|exact Logic.I|reflexivity|]. intros h6 rank6 A6 E6 _.
        eapply set_n_features_ok; [eapply adv_inv, A6|eapply adv_lt; [exact A6|lia]|exact Logic.I|exact Ed|].
        intros h8 rank8 _ S8. split; [reflexivity|]. rewrite S8 by discriminate. exact E6. }
      destruct (ok_run _ _ _ _ _ _ I2 H) as [own3 [rank3 [Z _]]]. exact Z.
    + destruct r as [lbls|e']; [specialize (proj1 (R lbls) eq_refl); discriminate|]. cbn. eauto.
  - destruct P as [h2 e' E2|h1 X2 y2 cover2 cl2 h2 r E2 Pl]; rewrite E2 in Q; simpl in Q; [|discriminate]. eauto.
Qed.
End Parallel.
