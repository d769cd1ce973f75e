(** The estimators do what their parameters stand for. *)
From Coq Require Import String.
From Verif Require Import Base BaseFacts Dict DictFacts ModelUnionFind ModelCore SpecCore CoreProp ModelObjects SpecObjects ObjectFacts
  ObjectProp ModelValidate SpecValidate ValidateProp ModelLearn SpecLearn LearnLogic LearnFacts LearnStable.
Open Scope nat_scope.
Open Scope list_scope.

Section Learn.
Context {F O : Type}.
Variable is_nan : F -> bool.
Variable is_inf : F -> bool.
Variable to_float : O -> res F.
Notation point := (ndarray F O).
Variable classes : nat -> class.
Variable beh : nat -> behaviour F O.
Variables c_tcover c_tclust c_failsafe : nat.
Hypothesis CO : classes_ok classes beh c_tcover c_tclust c_failsafe.
Notation inv := (inv classes).
Notation rely := (rely classes).
Notation adv := (adv classes).
Notation ok := (ok classes).
Notation cover_of := (cover_of classes beh).
Notation clust_of := (clust_of is_nan is_inf to_float classes beh).
Notation clustering_of := (clustering_of is_nan is_inf to_float classes beh).
Notation behaves := (behaves beh).
Notation cloneable := (cloneable classes).
Notation shares := (shares beh).
Notation post A := (res A -> (nat -> Prop) -> heap -> (nat -> nat) -> Prop).

Notation copy_clust := (copy_clust_of is_nan is_inf to_float classes beh c_tcover c_tclust c_failsafe CO).
Notation copy_share := (copy_shares classes beh c_tcover c_tclust c_failsafe CO).
Notation keep_share := (shares_kept classes beh c_tcover c_tclust c_failsafe CO).
Notation keep_clust := (clust_of_kept is_nan is_inf to_float classes beh).
Notation keep_cover := (cover_of_kept classes beh).

(** *** Rules with a continuation *)
Lemma adv_inv own h rank own' h' rank' : adv own h rank own' h' rank' -> inv h' rank'.
Proof. intros [_ [I _]]. exact I. Qed.
Lemma adv_kept own h rank own' h' rank' : adv own h rank own' h' rank' -> kept h h'.
Proof. intros [K _]. exact K. Qed.
Lemma adv_own own h rank own' h' rank' l : adv own h rank own' h' rank' -> own l -> own' l.
Proof. intros [_ [_ [_ [A _]]]]. apply A. Qed.
Lemma adv_rank own h rank own' h' rank' l : adv own h rank own' h' rank' -> l < length h -> rank' l = rank l.
Proof. intros [_ [_ [R _]]]. apply R. Qed.
Lemma adv_lt own h rank own' h' rank' l : adv own h rank own' h' rank' -> l < length h -> l < length h'.
Proof. intros A L. apply adv_kept, kept_length in A. lia. Qed.

Lemma bind_lift {A B : Type} (r : res A) (f : A -> prog B) own h rank (Q : post B) :
  match r with Ok a => ok (f a) own h rank Q | Err e => Q (Err e) own h rank end -> ok (pbind (lift r) f) own h rank Q.
Proof. intro H. destruct r; exact H. Qed.

Lemma lift_bind {A B : Type} (r : res A) (f : A -> prog B) : pbind (lift r) f = match r with Ok a => f a | Err e => lift (Err e) end.
Proof. destruct r; reflexivity. Qed.

Lemma bind_get {B : Type} l k v (f : value -> prog B) (own : nat -> Prop) h rank (Q : post B) :
  inv h rank -> own l \/ param_name k -> attr h l k = Some v ->
  (forall h1 rank1, rely own h rank h1 rank1 -> ok (f v) own h1 rank1 Q) -> ok (pbind (get l k) f) own h rank Q.
Proof.
  intros I Ow A H. apply ok_bind. apply ok_get; [exact I|eapply attr_some_lt, A|exact Ow| |].
  - intros w h1 rank1 A' R. rewrite A in A'. injection A' as <-. apply H, R.
  - intros h1 rank1 A' _. congruence.
Qed.

Lemma bind_put {B : Type} l k v (f : unit -> prog B) (own : nat -> Prop) h rank (Q : post B) :
  inv h rank -> l < length h -> own l -> is_public k = false ->
  (forall h1 rank1, adv own h rank own h1 rank1 -> attr h1 l k = Some v ->
     (forall l' k', own l' -> l' < length h -> (l', k') <> (l, k) -> attr h1 l' k' = attr h l' k') -> ok (f tt) own h1 rank1 Q) ->
  ok (pbind (put l k v) f) own h rank Q.
Proof. intros I L Ow P H. apply ok_bind. apply ok_put; assumption. Qed.

Lemma bind_new {B : Type} o n (f : nat -> prog B) (own : nat -> Prop) h rank (Q : post B) :
  inv h rank -> fits_heap classes h rank o n ->
  (forall t h1 rank1, adv own h rank (also own t) h1 rank1 -> nth_error h1 t = Some o -> length h <= t -> rank1 t = n ->
     (forall l', own l' -> l' < length h -> nth_error h1 l' = nth_error h l') -> ok (f t) (also own t) h1 rank1 Q) ->
  ok (pbind (new o) f) own h rank Q.
Proof.
  intros I Fh H. apply ok_bind. eapply ok_new; [exact I|exact Fh|]. intros h1 rank1 R _ A S. apply H; [exact A| | | |exact S].
  - rewrite nth_error_app2, Nat.sub_diag by lia. reflexivity.
  - destruct R as [K _]. apply kept_length, K.
  - apply rank_new_new.
Qed.

Lemma bind_clone {B : Type} lim l (f : nat -> prog B) (own : nat -> Prop) h rank (Q : post B) :
  inv h rank -> cloneable h l -> rank l + 1 < lim ->
  (forall c h2 rank2, copy classes h l h2 c -> length h <= c -> c < length h2 -> rank2 c = rank l ->
     adv own h rank (also own c) h2 rank2 ->
     (forall l', own l' -> l' < length h -> nth_error h2 l' = nth_error h l') -> ok (f c) (also own c) h2 rank2 Q) ->
  ok (pbind (pclone classes lim (VRef l)) f) own h rank Q.
Proof.
  intros I Cl Hl H. apply ok_bind. apply ok_clone; [exact I|eapply cloneable_lt, Cl|exact Hl| |].
  - intros c h2 rank2 _ Cp L1 L2 R I2 A S. apply H; assumption.
  - intros e h1 rank1 N. contradiction.
Qed.

Lemma bind_behaviour {B : Type} l b (f : behaviour F O -> prog B) own h rank (Q : post B) :
  behaves h l b -> (forall h1 rank1, rely own h rank h1 rank1 -> ok (f b) own h1 rank1 Q) ->
  ok (pbind (behaviour_at beh l) f) own h rank Q.
Proof.
  intros Bh H. apply ok_bind. apply ok_look. intros h1 rank1 R. pose proof R as [K _].
  destruct (kept_behaves beh _ _ _ _ K Bh) as [o [N E]]. rewrite (proj2 (rd_ok h1 l o) N). cbn [bind]. rewrite E. apply H, R.
Qed.

Lemma bind_params {B : Type} lim l p (f : list (string * value) -> prog B) own h rank (Q : post B) :
  inv h rank -> has_protocol classes h l -> view classes h l p -> l < length h -> rank l < lim ->
  (forall ps h1 rank1, rely own h rank h1 rank1 -> (forall k, dget String.eqb ps k = p k) -> ok (f ps) own h1 rank1 Q) ->
  ok (pbind (params_at classes lim l) f) own h rank Q.
Proof.
  intros I P V L Hl H. apply ok_bind. apply ok_look. intros h1 rank1 R. pose proof R as [K [I1 [Rk _]]].
  destruct (get_params_ok classes h1 rank1 (proj1 I1) lim l) as [ps [-> [_ Rep]]].
  - rewrite Rk by exact L. exact Hl.
  - apply (kept_protocol classes _ _ _ K L), P.
  - apply H; [exact R|]. apply (view_ext classes h1 l); [exact Rep|].
    apply (view_kept classes h rank h1 rank1); assumption.
Qed.

Lemma cloneable_protocol h l : cloneable h l -> has_protocol classes h l.
Proof. intros [o [d [N [P _]]]]. exists o. auto. Qed.

(** *** The cover *)
Lemma bind_cover {B : Type} lim l cov y (f : gen (list nat) -> prog B) own h rank (Q : post B) :
  inv h rank -> cover_of h (VRef l) cov -> rank l < lim ->
  (forall h1 rank1, rely own h rank h1 rank1 -> ok (f (cov y)) own h1 rank1 Q) ->
  ok (pbind (cover_apply classes beh lim l y) f) own h rank Q.
Proof.
  intros I C Hl H. unfold cover_apply. apply ok_bind.
  inversion C as [|l' Cl Bh|l' g p Cl Bh V]; subst.
  - apply bind_behaviour with (b := IsTrivialCover); [exact Bh|]. intros h1 rank1 R. cbn [lift LearnLogic.ok]. apply H, R.
  - apply bind_behaviour with (b := IsCover g); [exact Bh|]. intros h1 rank1 R. pose proof R as [K [I1 [Rk _]]].
    pose proof (cloneable_lt _ _ _ Cl) as L.
    apply bind_params with (p := p).
    + exact I1.
    + apply cloneable_protocol. eapply kept_cloneable; eassumption.
    + apply (view_kept classes h rank h1 rank1); assumption.
    + pose proof (kept_length _ _ K). lia.
    + rewrite Rk by exact L. exact Hl.
    + intros ps h2 rank2 R2 Hp. cbn [lift LearnLogic.ok]. destruct Bh as [o [_ E]].
      rewrite (co_cover _ _ _ _ _ CO _ _ E _ _ y Hp). apply H. eapply rely_trans; eassumption.
Qed.

(** *** Jobs *)
(** What [fit] of a clustering object promises. *)
Definition fit_post (c : list point -> res (list Z)) (r : nat) (xs : list point) : post unit :=
  fun x _ h' _ => match c xs with
                  | Ok lbls => x = Ok tt /\ attr h' r "labels_" = Some (VLabels lbls)
                  | Err e => x = Err e
                  end.
(** Enough recursion left for fitting the object [r]. *)
Definition enough (bound : nat) (h : heap) (rank : nat -> nat) (r : nat) : Prop :=
  rank r < bound \/ behaves h r IsTrivialClustering.
Lemma enough_adv bound own h rank own' h' rank' r : adv own h rank own' h' rank' -> r < length h ->
  enough bound h rank r -> enough bound h' rank' r.
Proof.
  intros A L [E|E]; [left; rewrite (adv_rank _ _ _ _ _ _ _ A L); exact E|right].
  eapply kept_behaves; [eapply adv_kept, A|exact E].
Qed.
Lemma enough_copy bound h rank r h2 rank2 c : copy classes h r h2 c -> rank2 c = rank r -> enough bound h rank r -> enough bound h2 rank2 c.
Proof. intros Cp R [E|E]; [left; lia|right; eapply copy_behaves; eassumption]. Qed.

Definition fit_works (fitc : nat -> list point -> prog unit) (bound : nat) : Prop :=
  forall r c xs (own : nat -> Prop) h rank, inv h rank -> clust_of h r c -> own r -> (forall l, shares h r l -> own l) ->
    enough bound h rank r -> ok (fitc r xs) own h rank (fit_post c r xs).

Section WithFit.
Variables (fitc : nat -> list point -> prog unit) (bound : nat).
Hypothesis FW : fit_works fitc bound.

Lemma job_ok r c xs (own : nat -> Prop) h rank : inv h rank -> clust_of h r c -> own r -> (forall l, shares h r l -> own l) ->
  enough bound h rank r -> ok (job fitc r xs) own h rank (fun x _ _ _ => x = c xs).
Proof.
  intros I C Ow Sh Hb. unfold job. eapply ok_seq; [exact I|apply FW; eassumption| |].
  - intros e own' h' rank' P _. unfold fit_post in P. destruct (c xs) as [l|e']; [destruct P as [P _]; discriminate|injection P as ->; reflexivity].
  - intros [] own' h' rank' P A. unfold fit_post in P. destruct (c xs) as [lbls|e']; [|discriminate]. destruct P as [_ E].
    apply bind_get with (v := VLabels lbls); [eapply adv_inv, A|left; eapply adv_own; eassumption|exact E|].
    intros h1 rank1 _. reflexivity.
Qed.

Lemma jobs_seq_ok lim X cl c opens after : forall k (own : nat -> Prop) h rank,
  inv h rank -> cloneable h cl -> clust_of h cl c -> (forall l, shares h cl l -> own l) -> enough bound h rank cl -> rank cl + 1 < lim ->
  ok (jobs_seq classes fitc lim X cl opens after) own h rank (fun x _ _ _ => x = run_jobs X (fun _ => c) k opens after).
Proof.
  induction opens as [|ids opens IH]; intros k own h rank I Cl C Sh Hb Hl.
  - simpl. destruct after; reflexivity.
  - cbn [jobs_seq run_jobs]. unfold run_clustering. apply bind_lift.
    destruct (map_res (rd X) ids) as [xs|e]; cbn [bind]; [|reflexivity].
    apply bind_clone; [exact I|exact Cl|exact Hl|]. intros c1 h2 rank2 Cp L1 L2 Rc A _.
    pose proof (adv_inv _ _ _ _ _ _ A) as I2. pose proof (adv_kept _ _ _ _ _ _ A) as K2. pose proof (cloneable_lt _ _ _ Cl) as L.
    eapply ok_seq; [exact I2|apply (job_ok c1 c)| |].
    + exact I2.
    + apply (copy_clust h rank h2 rank2 cl); assumption.
    + right. reflexivity.
    + intros l S. left. apply Sh. apply (copy_share h rank h2 rank2 cl c1); assumption.
    + eapply enough_copy; eassumption.
    + intros e own' h' rank' <- _. reflexivity.
    + intros lbls own3 h3 rank3 <- A3. cbn [bind]. pose proof (adv_trans _ _ _ _ _ _ _ _ _ _ A A3) as A'.
      pose proof (adv_inv _ _ _ _ _ _ A3) as I3. pose proof (adv_kept _ _ _ _ _ _ A') as K3.
      eapply ok_seq; [exact I3|apply (IH (S k))| |].
      * exact I3.
      * eapply kept_cloneable; eassumption.
      * apply (keep_clust h rank h3 rank3); assumption.
      * intros l S. eapply adv_own; [exact A'|]. apply Sh.
        apply (keep_share h rank h3 rank3); assumption.
      * eapply enough_adv; eassumption.
      * rewrite (adv_rank _ _ _ _ _ _ _ A' L). exact Hl.
      * intros e own' h' rank' <- _. reflexivity.
      * intros ps own' h' rank' <- _. reflexivity.
Qed.

(** *** [mapper_labels] and what follows *)
Definition pure_labels (X y : point) (cov : point -> gen (list nat)) (c : list point -> res (list Z)) : res (list (list Z)) :=
  do parts <- run_jobs (items X) (fun _ => c) 0 (yields (cov y)) (stops (cov y));
  do rs <- rows X;
  assign_labels (length rs) parts.

Lemma labels_ok lim X y cover cov cl c (own : nat -> Prop) h rank :
  inv h rank -> cover_of h (VRef cover) cov -> rank cover < lim ->
  cloneable h cl -> clust_of h cl c -> (forall l, shares h cl l -> own l) -> enough bound h rank cl -> rank cl + 1 < lim ->
  ok (p_mapper_labels classes beh fitc lim X y cover cl) own h rank (fun x _ _ _ => x = pure_labels X y cov c).
Proof.
  intros I Cv Hv Cl C Sh Hb Hl. unfold p_mapper_labels. pose proof (cloneable_lt _ _ _ Cl) as L.
  apply bind_cover with (cov := cov); [exact I|exact Cv|exact Hv|]. intros h1 rank1 R. pose proof R as [K [I1 [Rk _]]].
  unfold pure_labels.
  eapply ok_seq; [exact I1|apply (jobs_seq_ok lim (items X) cl c _ _ 0)| |].
  - exact I1.
  - eapply kept_cloneable; eassumption.
  - apply (keep_clust h rank h1 rank1); assumption.
  - intros l S. apply Sh. apply (keep_share h rank h1 rank1); assumption.
  - eapply enough_adv; [apply rely_adv, R|exact L|exact Hb].
  - rewrite Rk by exact L. exact Hl.
  - intros e own' h' rank' <- _. reflexivity.
  - intros parts own' h' rank' <- _. cbn [bind]. apply bind_lift. destruct (rows X) as [rs|e]; reflexivity.
Qed.

Lemma pure_labels_rows X y cov c rs : rows X = Ok rs -> pure_labels X y cov c = mapper_labels rs (cov y) (fun _ => c).
Proof. intro E. unfold pure_labels, mapper_labels, items. rewrite E. reflexivity. Qed.

Lemma graph_ok lim X y cover cov cl c (own : nat -> Prop) h rank :
  inv h rank -> cover_of h (VRef cover) cov -> rank cover < lim ->
  cloneable h cl -> clust_of h cl c -> (forall l, shares h cl l -> own l) -> enough bound h rank cl -> rank cl + 1 < lim ->
  ok (p_mapper_graph classes beh fitc lim X y cover cl) own h rank
     (fun x _ _ _ => x = do l <- pure_labels X y cov c; graph_of_labels l).
Proof.
  intros I Cv Hv Cl C Sh Hb Hl. unfold p_mapper_graph. eapply ok_seq; [exact I|eapply labels_ok; eassumption| |].
  - intros e own' h' rank' <- _. reflexivity.
  - intros l own' h' rank' <- _. reflexivity.
Qed.

Lemma components_ok lim X y cover cov cl c (own : nat -> Prop) h rank :
  inv h rank -> cover_of h (VRef cover) cov -> rank cover < lim ->
  cloneable h cl -> clust_of h cl c -> (forall l, shares h cl l -> own l) -> enough bound h rank cl -> rank cl + 1 < lim ->
  ok (p_mapper_connected_components classes beh fitc lim X y cover cl) own h rank
     (fun x _ _ _ => x = do l <- pure_labels X y cov c; components_of_labels l).
Proof.
  intros I Cv Hv Cl C Sh Hb Hl. unfold p_mapper_connected_components. eapply ok_seq; [exact I|eapply labels_ok; eassumption| |].
  - intros e own' h' rank' <- _. reflexivity.
  - intros l own' h' rank' <- _. reflexivity.
Qed.

(** *** Parameters that are absent: the library's own objects *)
Lemma tcover_cover h t : nth_error h t = Some (mkobj c_tcover []) -> cover_of h (VRef t) trivial_apply.
Proof.
  intro N. destruct (co_tcover _ _ _ _ _ CO) as [P [E B]]. constructor.
  - exists (mkobj c_tcover []), []. split; [exact N|]. simpl. split; [congruence|exact E].
  - exists (mkobj c_tcover []). auto.
Qed.
Lemma tclust_clust h t : nth_error h t = Some (mkobj c_tclust []) ->
  cloneable h t /\ clust_of h t trivial_clustering /\ forall l, ~ shares h t l.
Proof.
  intro N. destruct (co_tclust _ _ _ _ _ CO) as [P [E B]].
  assert (Bh : behaves h t IsTrivialClustering) by (exists (mkobj c_tclust []); auto). split; [|split].
  - exists (mkobj c_tclust []), []. split; [exact N|]. simpl. split; [congruence|exact E].
  - constructor. exact Bh.
  - intros l S. inversion S as [r r' B' A|r r' l' B' A S']; subst.
    + pose proof (behaves_fun _ _ _ _ _ Bh B'). discriminate.
    + destruct B' as [B'|B']; pose proof (behaves_fun _ _ _ _ _ Bh B'); discriminate.
Qed.

(** What [fit] of MapperClustering promises for validated data. *)
Definition pure_components (X y : point) cov c : res (list Z) := do l <- pure_labels X y cov c; components_of_labels l.

(** The result of validation is fit for iteration, or not at all. *)
Definition arr_ok (X : point) : Prop := length (a_shape X) <> 1 /\ exists xs, a_entries X = ENum xs.

Lemma arr_rows X : arr_ok X -> (exists rs d, rows X = Ok rs /\ rd (a_shape X) 1 = Ok d) \/ (rows X = Err TypeError /\ a_shape X = []).
Proof.
  intros [D [xs E]]. unfold rows. rewrite E. destruct (a_shape X) as [|n [|m s]]; simpl in *; [auto|lia|]. left. eexists. eexists. split; reflexivity.
Qed.

Lemma mapper_components_length (rs : list point) g cc (out : list Z) :
  mapper_connected_components rs g cc = Ok out -> length out = length rs.
Proof.
  intro E. unfold mapper_connected_components in E. destruct (mapper_labels rs g cc) as [l|e] eqn:M; [|discriminate].
  destruct (components_of_graph _ _ _ _ M) as [g' [comps [_ [E' [Ln _]]]]].
  unfold mapper_connected_components in E'. rewrite M in E'. rewrite E in E'. injection E' as <-. exact Ln.
Qed.

Lemma map_rd_all {A : Type} (l : list A) : map_res (rd l) (seq 0 (length l)) = Ok l.
Proof.
  assert (G : forall l2 l1 : list A, map_res (rd (l1 ++ l2)) (seq (length l1) (length l2)) = Ok l2).
  { induction l2 as [|x l2 IH]; intro l1; simpl; [reflexivity|]. unfold rd at 1.
    rewrite nth_error_app2, Nat.sub_diag by lia. simpl. specialize (IH (l1 ++ [x])).
    rewrite app_length, <- app_assoc in IH. simpl in IH. rewrite Nat.add_1_r in IH. rewrite IH. reflexivity. }
  apply (G l []).
Qed.

Definition mc_post (m : nat) (w : res (list Z)) : post unit :=
  fun x _ h' _ => match w with
                  | Ok lbls => x = Ok tt /\ attr h' m "labels_" = Some (VLabels lbls)
                  | Err e => x = Err e
                  end.

Lemma bind_cover_param {B : Type} lim vc cov (f : nat -> prog B) (own : nat -> Prop) h rank (Q : post B) :
  inv h rank -> cover_of h vc cov -> 1 < lim -> (forall l, vc = VRef l -> rank l + 1 < lim) ->
  (forall cover own' h' rank', adv own h rank own' h' rank' -> cover_of h' (VRef cover) cov -> rank' cover + 1 < lim ->
     (forall l', own l' -> l' < length h -> nth_error h' l' = nth_error h l') ->
     ok (f cover) own' h' rank' Q) ->
  ok (prg c1 <- match vc with VNone => prg t <- new (mkobj c_tcover []); lift (Ok (VRef t)) | _ => lift (Ok vc) end;
      prg cover <- pclone classes lim c1; f cover) own h rank Q.
Proof.
  intros I C Hl Hr H.
  assert (G : forall l (own0 : nat -> Prop) h0 rank0, adv own h rank own0 h0 rank0 ->
    (forall l', own l' -> l' < length h -> nth_error h0 l' = nth_error h l') -> cover_of h0 (VRef l) cov -> cloneable h0 l -> rank0 l + 1 < lim ->
    ok (prg cover <- pclone classes lim (VRef l); f cover) own0 h0 rank0 Q).
  { intros l own0 h0 rank0 A S C0 Cl Hl0. apply bind_clone; [eapply adv_inv, A|exact Cl|exact Hl0|].
    intros c h2 rank2 Cp _ _ Rc A2 S2. apply H.
    - eapply adv_trans; eassumption.
    - eapply copy_cover_of; eassumption.
    - rewrite Rc. exact Hl0.
    - intros l' Ow L. rewrite S2; [apply S; assumption|eapply adv_own; eassumption|eapply adv_lt; eassumption]. }
  inversion C as [|l Cl Bh|l g p Cl Bh V]; subst.
  - apply ok_bind. apply bind_new with (n := 0); [exact I|eapply tcover_fits, CO|].
    intros t h1 rank1 A N L Rt S. cbn [lift LearnLogic.ok]. apply G; [exact A|exact S|apply tcover_cover, N| |rewrite Rt; lia].
    pose proof (tcover_cover _ _ N) as X. inversion X; assumption.
  - rewrite lift_bind. apply G; [apply adv_refl, I|auto|exact C|exact Cl|apply Hr; reflexivity].
  - rewrite lift_bind. apply G; [apply adv_refl, I|auto|exact C|exact Cl|apply Hr; reflexivity].
Qed.

Lemma bind_clust_param {B : Type} lim vk c (f : nat -> prog B) (own : nat -> Prop) h rank (Q : post B) :
  inv h rank -> clustering_of h vk c -> 1 < lim -> (forall r, vk = VRef r -> rank r + 1 < lim /\ rank r < bound) ->
  (forall r l, vk = VRef r -> shares h r l -> own l) ->
  (forall cl own' h' rank', adv own h rank own' h' rank' -> cloneable h' cl -> clust_of h' cl c -> (forall l, shares h' cl l -> own' l) ->
     rank' cl + 1 < lim -> enough bound h' rank' cl ->
     (forall l', own l' -> l' < length h -> nth_error h' l' = nth_error h l') ->
     ok (f cl) own' h' rank' Q) ->
  ok (prg k1 <- match vk with VNone => prg t <- new (mkobj c_tclust []); lift (Ok (VRef t)) | _ => lift (Ok vk) end;
      prg cl <- pclone classes lim k1; f cl) own h rank Q.
Proof.
  intros I C Hl Hr Sh H.
  assert (G : forall l (own0 : nat -> Prop) h0 rank0, adv own h rank own0 h0 rank0 ->
    (forall l', own l' -> l' < length h -> nth_error h0 l' = nth_error h l') -> cloneable h0 l -> clust_of h0 l c ->
    (forall x, shares h0 l x -> own0 x) -> rank0 l + 1 < lim -> enough bound h0 rank0 l ->
    ok (prg cl <- pclone classes lim (VRef l); f cl) own0 h0 rank0 Q).
  { intros l own0 h0 rank0 A S Cl C0 Sh0 Hl0 Hn0. apply bind_clone; [eapply adv_inv, A|exact Cl|exact Hl0|].
    intros c1 h2 rank2 Cp _ _ Rc A2 S2. pose proof (adv_inv _ _ _ _ _ _ A) as I0. pose proof (adv_inv _ _ _ _ _ _ A2) as I2.
    pose proof (adv_kept _ _ _ _ _ _ A2) as K2. apply H.
    - eapply adv_trans; eassumption.
    - eapply copy_cloneable; eassumption.
    - apply (copy_clust h0 rank0 h2 rank2 l); assumption.
    - intros x S3. left. apply Sh0. apply (copy_share h0 rank0 h2 rank2 l c1); assumption.
    - rewrite Rc. exact Hl0.
    - eapply enough_copy; eassumption.
    - intros l' Ow L. rewrite S2; [apply S; assumption|eapply adv_own; eassumption|eapply adv_lt; eassumption]. }
  destruct C as [|r c Cl C].
  - apply ok_bind. apply bind_new with (n := 0); [exact I|eapply tclust_fits, CO|].
    intros t h1 rank1 A N L Rt S. cbn [lift LearnLogic.ok]. destruct (tclust_clust _ _ N) as [T1 [T2 T3]].
    apply G; [exact A|exact S|exact T1|exact T2|intros x X; exfalso; eapply T3, X|rewrite Rt; lia|].
    right. exists (mkobj c_tclust []). split; [exact N|apply (co_tclust _ _ _ _ _ CO)].
  - rewrite lift_bind. destruct (Hr r eq_refl). apply G; [apply adv_refl, I|auto|exact Cl|exact C|intros x; apply Sh; reflexivity|assumption|left; assumption].
Qed.

Lemma set_n_features_ok m (X : point) d (own : nat -> Prop) h rank (P : post unit) : inv h rank -> m < length h -> own m -> rd (a_shape X) 1 = Ok d ->
  (forall h1 rank1, adv own h rank own h1 rank1 ->
     (forall k', k' <> "n_features_in_"%string -> attr h1 m k' = attr h m k') -> P (Ok tt) own h1 rank1) ->
  ok (set_n_features_in m X) own h rank P.
Proof.
  intros I L Ow E H. unfold set_n_features_in. rewrite E, lift_bind. apply ok_put; [exact I|exact L|exact Ow|reflexivity|].
  intros h2 rank2 A _ S. apply H; [exact A|]. intros k' Hk. apply S; [exact Ow|exact L|congruence].
Qed.

Lemma validate_arr X y X' y' : validate is_nan is_inf to_float X y = Ok (X', y') -> arr_ok X'.
Proof. intro V. destruct (validate_ok _ _ _ _ _ _ _ V) as [E [_ [D _]]]. split; assumption. Qed.

Lemma pure_labels_arr X y cov c l : arr_ok X -> pure_labels X y cov c = Ok l -> exists rs d, rows X = Ok rs /\ rd (a_shape X) 1 = Ok d.
Proof.
  intros W E. destruct (arr_rows X W) as [[rs [d [R D]]]|[R _]]; [eauto|]. unfold pure_labels in E. rewrite R in E.
  destruct (run_jobs (items X) (fun _ => c) 0 (yields (cov y)) (stops (cov y))); discriminate.
Qed.

Definition arg_y (X : input F O) (y : option (input F O)) : input F O := match y with None => X | Some y' => y' end.

Lemma mc_fit_ok lim m X y vc cov vk c nj (own : nat -> Prop) h rank :
  inv h rank -> own m -> behaves h m IsMapperClustering ->
  attr h m "cover" = Some vc -> cover_of h vc cov -> attr h m "clustering" = Some vk -> clustering_of h vk c ->
  attr h m "n_jobs" = Some nj -> (forall l, shares h m l -> own l) ->
  rank m <= bound -> rank m + 1 < lim ->
  ok (mc_fit is_nan is_inf to_float classes beh c_tcover c_tclust fitc lim m X y) own h rank
     (mc_post m (do v <- validate is_nan is_inf to_float X (arg_y X y); pure_components (fst v) (snd v) cov c)).
Proof.
  intros I Ow Bh Ac Cv Ak Ck Aj Sh Hb Hl. unfold mc_fit, mc_post. pose proof (behaves_lt _ _ _ _ Bh) as L.
  change (match y with None => X | Some y' => y' end) with (arg_y X y).
  rewrite lift_bind. destruct (validate is_nan is_inf to_float X (arg_y X y)) as [[X' y']|e] eqn:V; [|reflexivity]. cbn [bind fst snd].
  pose proof (validate_arr _ _ _ _ V) as WX.
  apply bind_get with (v := vc); [exact I|auto|exact Ac|]. intros h1 rank1 R1. pose proof (rely_adv _ _ _ _ _ _ R1) as A1.
  pose proof (adv_inv _ _ _ _ _ _ A1) as I1. pose proof (adv_kept _ _ _ _ _ _ A1) as K1.
  apply bind_cover_param with (cov := cov); [exact I1|apply (keep_cover h rank h1 rank1); assumption|lia| |].
  { intros l ->. destruct (ref_rank classes beh _ _ _ CO h rank m "cover" l I) as [Ll Hrl]; [tauto|pname|exact Ac|].
    rewrite (adv_rank _ _ _ _ _ _ _ A1 Ll). lia. }
  intros cover own2 h2 rank2 A2' Cv2 Rc2 _. pose proof (adv_trans _ _ _ _ _ _ _ _ _ _ A1 A2') as A2.
  pose proof (adv_inv _ _ _ _ _ _ A2) as I2. pose proof (adv_kept _ _ _ _ _ _ A2) as K2.
  apply bind_get with (v := vk); [exact I2|right; pname|apply (kept_attr_some h); [exact K2|pname|exact Ak]|].
  intros h3 rank3 R3. pose proof (adv_trans _ _ _ _ _ _ _ _ _ _ A2 (rely_adv _ _ _ _ _ _ R3)) as A3.
  pose proof (adv_inv _ _ _ _ _ _ A3) as I3. pose proof (adv_kept _ _ _ _ _ _ A3) as K3.
  assert (Cv3 : cover_of h3 (VRef cover) cov) by (apply (keep_cover h2 rank2 h3 rank3); [exact I2|exact I3|apply R3|exact Cv2]).
  assert (Lc : cover < length h2) by (inversion Cv2; eapply cloneable_lt; eassumption).
  assert (Rc3 : rank3 cover + 1 < lim) by (rewrite (adv_rank _ _ _ _ _ _ _ (rely_adv _ _ _ _ _ _ R3) Lc); exact Rc2).
  assert (Lc3 : cover < length h3) by (eapply adv_lt; [apply (rely_adv _ _ _ _ _ _ R3)|exact Lc]).
  assert (Rk : forall r, vk = VRef r -> r < length h /\ rank r < rank m).
  { intros r ->. apply (ref_rank classes beh _ _ _ CO h rank m "clustering" r I); [tauto|pname|exact Ak]. }
  apply bind_clust_param with (c := c);
    [exact I3|apply (clustering_of_kept is_nan is_inf to_float classes beh h rank h3 rank3); assumption|lia| | |].
  { intros r E. destruct (Rk r E) as [Lr Hr]. rewrite (adv_rank _ _ _ _ _ _ _ A3 Lr). lia. }
  { intros r l E S. subst vk. eapply adv_own; [exact A3|]. apply Sh. apply sh_below with (r' := r); [auto|exact Ak|].
    apply (keep_share h rank h3 rank3); try assumption. apply Rk. reflexivity. }
  intros cl own4 h4 rank4 A4' Cl4 C4 Sh4 Hl4 Hb4 _. pose proof (adv_trans _ _ _ _ _ _ _ _ _ _ A3 A4') as A4.
  pose proof (adv_inv _ _ _ _ _ _ A4) as I4. pose proof (adv_kept _ _ _ _ _ _ A4) as K4.
  apply bind_get with (v := nj); [exact I4|right; pname|apply (kept_attr_some h); [exact K4|pname|exact Aj]|].
  intros h5 rank5 R5. pose proof (rely_adv _ _ _ _ _ _ R5) as A5'. pose proof (adv_trans _ _ _ _ _ _ _ _ _ _ A4 A5') as A5.
  pose proof (adv_inv _ _ _ _ _ _ A5) as I5. pose proof (adv_kept _ _ _ _ _ _ A5) as K5.
  pose proof (adv_kept _ _ _ _ _ _ A5') as K45. pose proof (cloneable_lt _ _ _ Cl4) as Lcl.
  eapply ok_seq; [exact I5|apply components_ok with (cov := cov) (c := c)| |].
  - exact I5.
  - apply (keep_cover h3 rank3 h5 rank5); [exact I3|exact I5| |exact Cv3].
    eapply kept_trans; [apply (adv_kept _ _ _ _ _ _ A4')|exact K45].
  - rewrite (adv_rank _ _ _ _ _ _ _ (adv_trans _ _ _ _ _ _ _ _ _ _ A4' A5') Lc3). lia.
  - eapply kept_cloneable; eassumption.
  - apply (keep_clust h4 rank4 h5 rank5); assumption.
  - intros l S. apply Sh4. apply (keep_share h4 rank4 h5 rank5); assumption.
  - apply (enough_adv _ _ _ _ _ _ _ _ A5' Lcl Hb4).
  - rewrite (adv_rank _ _ _ _ _ _ _ A5' Lcl). exact Hl4.
  - intros e own' h' rank' P _. unfold pure_components. rewrite <- P. reflexivity.
  - intros out own6 h6 rank6 P A6'. pose proof (adv_trans _ _ _ _ _ _ _ _ _ _ A5 A6') as A6.
    unfold pure_components. rewrite <- P. destruct (pure_labels X' y' cov c) as [l|e] eqn:E; [|discriminate]. cbn [bind] in P.
    destruct (pure_labels_arr _ _ _ _ _ WX E) as [rs [d [Er Ed]]]. rewrite (pure_labels_rows _ _ _ _ _ Er) in E.
    assert (Ln : length out = length rs).
    { eapply mapper_components_length with (g := cov y') (cc := fun _ => c). unfold mapper_connected_components. rewrite E. symmetry. exact P. }
    rewrite Er, lift_bind, <- Ln, map_rd_all, lift_bind.
    apply bind_put; [eapply adv_inv, A6|eapply adv_lt; eassumption|eapply adv_own; eassumption|reflexivity|].
    intros h7 rank7 A7 E7 _. pose proof (adv_trans _ _ _ _ _ _ _ _ _ _ A6 A7) as A7'.
    eapply set_n_features_ok; [eapply adv_inv, A7|eapply adv_lt; eassumption|eapply adv_own; eassumption|exact Ed|].
    intros h8 rank8 _ S8. split; [reflexivity|]. rewrite S8 by discriminate. exact E7.
Qed.

End WithFit.
End Learn.
