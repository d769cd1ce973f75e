(** Whatever is fitted, and whether or not it succeeds, parameters stay as they
    are and the heap stays well formed. *)
From Coq Require Import String.
From Verif Require Import Base BaseFacts Dict DictFacts ModelUnionFind ModelCore ModelObjects SpecObjects ObjectFacts
  ObjectProp ModelValidate SpecValidate ValidateProp ModelLearn SpecLearn LearnLogic LearnFacts LearnStable LearnProp LearnFit.
Open Scope nat_scope.
Open Scope list_scope.

(** *** A larger recursion limit changes nothing that succeeds *)
Definition le_res {A : Type} (r r' : res A) : Prop := forall a, r = Ok a -> r' = Ok a.
Lemma le_refl {A : Type} (r : res A) : le_res r r.
Proof. intros a E. exact E. Qed.
Lemma le_bind {A B : Type} (r r' : res A) (f g : A -> res B) : le_res r r' -> (forall a, le_res (f a) (g a)) ->
  le_res (bind r f) (bind r' g).
Proof. intros H K b E. destruct r as [a|e]; [|discriminate]. rewrite (H a eq_refl). apply K, E. Qed.
Lemma le_for_each {A S : Type} (l : list A) (f g : A -> S -> res S) : (forall x s, le_res (f x s) (g x s)) ->
  forall s, le_res (for_each l f s) (for_each l g s).
Proof. intro H. induction l as [|x l IH]; intro s; cbn [for_each]; [apply le_refl|]. apply le_bind; [apply H|exact IH]. Qed.

Section Mono.
Variable classes : nat -> class.
Lemma get_params_more : forall lim lim' h deep l, lim <= lim' -> le_res (get_params classes lim h deep l) (get_params classes lim' h deep l).
Proof.
  induction lim as [|lim IH]; intros lim' h deep l L; [intros a E; discriminate|]. destruct lim' as [|lim']; [lia|].
  cbn [get_params]. apply le_bind; [apply le_refl|]. intro o. destruct (c_protocol (classes (o_class o))) as [|names|]; [| |apply le_refl].
  - apply le_for_each. intros [k v] s. destruct (is_public k); [|apply le_refl].
    destruct v; try apply le_refl. destruct (protocol_of classes h (VRef l0)); try apply le_refl;
    (destruct deep; [apply le_bind; [apply IH; lia|intro; apply le_refl]|apply le_refl]).
  - apply le_for_each. intros k s. destruct (attr_of o k) as [v|]; [|apply le_refl]. apply le_bind; [|intro; apply le_refl].
    destruct v; try apply le_refl. destruct (protocol_of classes h (VRef l0)); try apply le_refl;
    (destruct deep; [apply le_bind; [apply IH; lia|intro; apply le_refl]|apply le_refl]).
Qed.

Lemma set_params_more : forall lim lim' h l ps, lim <= lim' -> le_res (set_params classes lim h l ps) (set_params classes lim' h l ps).
Proof.
  induction lim as [|lim IH]; intros lim' h l ps L; [intros a E; discriminate|]. destruct lim' as [|lim']; [lia|].
  cbn [set_params]. apply le_bind; [apply le_refl|]. intro o. destruct (c_protocol (classes (o_class o))) as [|names|]; [| |apply le_refl].
  - apply le_bind; [apply le_refl|]. intros [h1 nested]. apply le_for_each. intros [[k j] v] h2.
    destruct (has_name classes h2 l k); [|apply le_refl]. apply le_bind; [apply le_refl|]. intro o2.
    destruct (attr_of o2 k) as [w|]; [|apply le_refl]. apply le_bind; [apply le_refl|]. intro l'. apply IH. lia.
  - destruct ps as [|p ps]; [apply le_refl|]. apply le_bind; [apply get_params_more; lia|]. intro valid.
    apply le_bind; [apply le_refl|]. intros [[h1 valid1] nested]. apply le_for_each. intros kd h2.
    apply le_bind; [apply le_refl|]. intro w. apply le_bind; [apply le_refl|]. intro l'. apply IH. lia.
Qed.

Lemma clone_more lim lim' h l : lim <= lim' -> le_res (clone classes lim h l) (clone classes lim' h l).
Proof.
  intro L. unfold clone. apply le_bind; [apply get_params_more, L|]. intro ps. apply le_bind; [apply le_refl|]. intro o.
  destruct (c_init (classes (o_class o))) as [d|]; [|apply le_refl]. apply le_bind; [apply set_params_more, L|]. intro. apply le_refl.
Qed.

Lemma get_params_oob lim h deep l : length h <= l -> exists e, get_params classes lim h deep l = Err e.
Proof.
  intro L. destruct lim as [|lim]; simpl; [eauto|]. destruct (rd h l) as [o|e] eqn:E; [|simpl; eauto].
  apply rd_ok, nth_error_lt in E. lia.
Qed.
End Mono.

Lemma run_bind {A B : Type} (p : prog A) (f : A -> prog B) : forall h,
  run (pbind p f) h = match snd (run p h) with Ok a => run (f a) (fst (run p h)) | Err e => (fst (run p h), Err e) end.
Proof. induction p as [[a|e]|upd next IH]; intro h; simpl; [reflexivity|reflexivity|apply IH]. Qed.
Lemma run_catch {A : Type} (p : prog A) (f : exn -> prog A) : forall h,
  run (pcatch p f) h = match snd (run p h) with Ok a => run p h | Err e => run (f e) (fst (run p h)) end.
Proof. induction p as [[a|e]|upd next IH]; intro h; simpl; [reflexivity|reflexivity|apply IH]. Qed.

Section History.
Context {F O : Type}.
Variable is_nan : F -> bool.
Variable is_inf : F -> bool.
Variable to_float : O -> res F.
Notation point := (ndarray F O).
Variable classes : nat -> class.
Variable beh : nat -> behaviour F O.
Variables c_tcover c_tclust c_failsafe : nat.
Hypothesis CO : classes_ok classes beh c_tcover c_tclust c_failsafe.
Notation inv := (inv classes).
Notation behaves := (behaves beh).

Definition fine (h h' : heap) (rank : nat -> nat) : Prop := exists rank', inv h' rank' /\ kept h h' /\ same_rank h rank rank'.
Lemma fine_refl h rank : inv h rank -> fine h h rank.
Proof. intro I. exists rank. split; [exact I|]. split; [apply kept_refl|intros l _; reflexivity]. Qed.

(** Starting in a well formed heap where [P] holds, the program keeps parameters
    and ends in a well formed heap; if it succeeds, [Q] holds there. *)
Definition tri {A : Type} (P : heap -> Prop) (p : prog A) (Q : A -> heap -> Prop) : Prop :=
  forall h rank, inv h rank -> P h -> fine h (fst (run p h)) rank /\ forall a, snd (run p h) = Ok a -> Q a (fst (run p h)).
Definition any : heap -> Prop := fun _ => True.
Definition anyq {A : Type} : A -> heap -> Prop := fun _ _ => True.
Notation safe p := (tri any p anyq).

Lemma tri_bind {A B : Type} (P : heap -> Prop) (p : prog A) (Q : A -> heap -> Prop) (f : A -> prog B) (R : B -> heap -> Prop) :
  tri P p Q -> (forall a, tri (Q a) (f a) R) -> tri P (pbind p f) R.
Proof.
  intros H K h rank I HP. rewrite run_bind. destruct (H h rank I HP) as [[rank1 [I1 [K1 S1]]] Q1].
  destruct (snd (run p h)) as [a|e]; cbn [fst snd].
  - destruct (K a _ rank1 I1 (Q1 a eq_refl)) as [[rank2 [I2 [K2 S2]]] Q2]. split; [|exact Q2].
    exists rank2. split; [exact I2|]. split; [eapply kept_trans; eassumption|].
    intros l L. rewrite S2 by (pose proof (kept_length _ _ K1); lia). apply S1, L.
  - split; [exists rank1; auto|discriminate].
Qed.
Lemma tri_catch {A : Type} (p : prog A) (f : exn -> prog A) : safe p -> (forall e, safe (f e)) -> safe (pcatch p f).
Proof.
  intros H K h rank I HP. rewrite run_catch. destruct (H h rank I HP) as [[rank1 [I1 [K1 S1]]] _].
  destruct (snd (run p h)) as [a|e]; cbn [fst snd].
  - split; [exists rank1; auto|intros; exact Logic.I].
  - destruct (K e _ rank1 I1 HP) as [[rank2 [I2 [K2 S2]]] _]. split; [|intros; exact Logic.I].
    exists rank2. split; [exact I2|]. split; [eapply kept_trans; eassumption|].
    intros l L. rewrite S2 by (pose proof (kept_length _ _ K1); lia). apply S1, L.
Qed.
Lemma tri_imp {A : Type} (P : heap -> Prop) (p : prog A) (Q Q' : A -> heap -> Prop) : tri P p Q ->
  (forall a h rank, inv h rank -> Q a h -> Q' a h) -> tri P p Q'.
Proof.
  intros H K h rank I HP. destruct (H h rank I HP) as [Fi Q1]. split; [exact Fi|].
  intros a E. destruct Fi as [rank' [I' _]]. eapply K; [exact I'|apply Q1, E].
Qed.
Lemma tri_pre {A : Type} (P P' : heap -> Prop) (p : prog A) (Q : A -> heap -> Prop) : tri P p Q -> (forall h, P' h -> P h) -> tri P' p Q.
Proof. intros H K h rank I HP. apply H; auto. Qed.
Lemma tri_safe {A : Type} (P : heap -> Prop) (p : prog A) (Q : A -> heap -> Prop) : tri P p Q -> tri P p anyq.
Proof. intro H. eapply tri_imp; [exact H|intros; exact Logic.I]. Qed.
Lemma safe_pre {A : Type} (P : heap -> Prop) (p : prog A) : safe p -> tri P p anyq.
Proof. intro H. eapply tri_pre; [exact H|intros; exact Logic.I]. Qed.

Lemma tri_lift {A : Type} (P : heap -> Prop) (r : res A) : tri P (lift r) (fun a h => P h /\ r = Ok a).
Proof. intros h rank I HP. cbn [lift run fst snd]. split; [apply fine_refl, I|auto]. Qed.
Lemma tri_look {A : Type} (P : heap -> Prop) (f : heap -> res A) : tri P (look f) (fun a h => P h /\ f h = Ok a).
Proof. intros h rank I HP. cbn [look run fst snd]. split; [apply fine_refl, I|auto]. Qed.
Lemma tri_get (P : heap -> Prop) l k : tri P (get l k) (fun v h => P h /\ attr h l k = Some v).
Proof.
  eapply tri_imp; [apply tri_look|]. intros v h rank _ [HP E]. split; [exact HP|]. unfold attr.
  destruct (rd h l) as [o|] eqn:R; [|discriminate]. apply rd_ok in R. rewrite R. cbn [bind] in E. destruct (attr_of o k); congruence.
Qed.
Lemma tri_put (P : heap -> Prop) l k v : is_public k = false ->
  tri P (put l k v) (fun _ h' => exists h, P h /\ kept h h' /\ attr h' l k = Some v /\ forall l' k', (l', k') <> (l, k) -> attr h' l' k' = attr h l' k').
Proof.
  intros Pk h rank I HP. unfold put. cbn [run fst snd]. destruct (set_attr h l k v) as [h'|e] eqn:E.
  - unfold set_attr in E. destruct (rd h l) as [o|] eqn:R; [|discriminate]. apply rd_ok in R. cbn [bind] in E.
    destruct (wr_ok h l (mkobj (o_class o) (dset String.eqb (o_attrs o) k v)) ltac:(eapply nth_error_lt, R)) as [h2 [E2 [Len Nth]]].
    rewrite E2 in E. injection E as ->.
    split.
    + exists rank. split; [eapply put_inv; eassumption|]. split; [eapply put_kept; eassumption|intros x _; reflexivity].
    + intros _ _. exists h. split; [exact HP|]. split; [eapply put_kept; eassumption|].
      split; [eapply put_attr_new; eassumption|]. intros l' k' Hk. eapply put_attr; eassumption.
  - split; [apply fine_refl, I|discriminate].
Qed.
Lemma tri_new (P : heap -> Prop) o : (forall h rank, inv h rank -> P h -> exists n, fits_heap classes h rank o n) ->
  tri P (new o) (fun t h' => exists h, P h /\ h' = h ++ [o] /\ t = length h).
Proof.
  intros Fh h rank I HP. cbn [new run fst snd]. destruct (Fh h rank I HP) as [n Fn]. split.
  - exists (rank_new h rank n). split; [apply new_inv; assumption|]. split; [apply new_kept|]. intros l L. apply rank_new_old, L.
  - intros a [= <-]. exists h. auto.
Qed.
Lemma tri_clone (P : heap -> Prop) lim v : tri P (pclone classes lim v) (fun c h' => exists h o', P h /\ h' = h ++ [o'] /\ c = length h).
Proof.
  intros h rank I HP. unfold pclone. rewrite run_bind. destruct (as_ref v) as [l|e]; cbn [lift run fst snd]; [|split; [apply fine_refl, I|discriminate]].
  destruct (clone classes lim h l) as [[c h2]|e] eqn:E; cbn [fst snd bind]; [|split; [apply fine_refl, I|discriminate]].
  assert (L : l < length h).
  { destruct (Nat.lt_ge_cases l (length h)) as [L|L]; [exact L|]. destruct (get_params_oob classes lim h true l L) as [e G].
    unfold clone in E. rewrite G in E. discriminate. }
  apply (clone_more classes lim (lim + rank l + 2)) in E; [|lia].
  destruct (clone_cases classes h rank l (lim + rank l + 2) I L) as [[_ [o' [E2 [I2 _]]]]|[_ [e E2]]]; [lia| |congruence].
  rewrite E2 in E. injection E as <- <-. split.
  - exists (rank_new h rank (rank l)). split; [exact I2|]. split; [apply new_kept|]. intros x Lx. apply rank_new_old, Lx.
  - intros a [= <-]. exists h, o'. auto.
Qed.

Lemma safe_lift {A : Type} (r : res A) : safe (lift r).
Proof. eapply tri_safe, tri_lift. Qed.
Lemma safe_look {A : Type} (f : heap -> res A) : safe (look f).
Proof. eapply tri_safe, tri_look. Qed.
Lemma safe_put l k v : is_public k = false -> safe (put l k v).
Proof. intro H. eapply tri_safe, tri_put, H. Qed.
Lemma safe_clone lim v : safe (pclone classes lim v).
Proof. eapply tri_safe, tri_clone. Qed.
Lemma safe_new_tcover : safe (new (mkobj c_tcover [])).
Proof. eapply tri_safe, tri_new. intros h rank I _. exists 0. eapply tcover_fits, CO. Qed.
Lemma safe_new_tclust : safe (new (mkobj c_tclust [])).
Proof. eapply tri_safe, tri_new. intros h rank I _. exists 0. eapply tclust_fits, CO. Qed.
Lemma safe_bind {A B : Type} (p : prog A) (f : A -> prog B) : safe p -> (forall a, safe (f a)) -> safe (pbind p f).
Proof. intros H K. eapply tri_bind; [exact H|]. intro a. apply safe_pre, K. Qed.

Ltac safes := repeat (cbn beta; lazymatch goal with
  | |- tri _ (pbind _ _) _ => apply safe_bind; [|let a := fresh "a" in intro a]
  | |- tri _ (lift _) _ => apply safe_lift
  | |- tri _ (look _) _ => apply safe_look
  | |- tri _ (get _ _) _ => apply safe_look
  | |- tri _ (behaviour_at _ _) _ => apply safe_look
  | |- tri _ (params_at _ _ _) _ => apply safe_look
  | |- tri _ (pclone _ _ _) _ => apply safe_clone
  | |- tri _ (put _ _ _) _ => apply safe_put; reflexivity
  | |- tri _ (new (mkobj c_tcover _)) _ => apply safe_new_tcover
  | |- tri _ (new (mkobj c_tclust _)) _ => apply safe_new_tclust
  | |- tri _ (match ?x with _ => _ end) _ => destruct x
  end).

Section WithFit.
Variable fitc : nat -> list point -> prog unit.
Hypothesis SF : forall r xs, safe (fitc r xs).

Lemma safe_jobs lim X cl opens after : safe (jobs_seq classes fitc lim X cl opens after).
Proof.
  induction opens as [|ids opens IH]; cbn [jobs_seq]; [apply safe_lift|]. safes; [|exact IH].
  unfold job. safes. apply SF.
Qed.
Lemma safe_labels lim X y cover cl : safe (p_mapper_labels classes beh fitc lim X y cover cl).
Proof.
  unfold p_mapper_labels. safes; [|apply safe_jobs]. unfold cover_apply. safes.
Qed.
Lemma safe_graph lim X y cover cl : safe (p_mapper_graph classes beh fitc lim X y cover cl).
Proof. unfold p_mapper_graph. safes. apply safe_labels. Qed.
Lemma safe_components lim X y cover cl : safe (p_mapper_connected_components classes beh fitc lim X y cover cl).
Proof. unfold p_mapper_connected_components. safes. apply safe_labels. Qed.

Lemma safe_mc_fit lim m X y : safe (mc_fit is_nan is_inf to_float classes beh c_tcover c_tclust fitc lim m X y).
Proof.
  unfold mc_fit. safes; first [apply safe_components|unfold set_n_features_in; safes].
Qed.

Lemma failsafe_fits_any h rank vk vb : (forall q, vk = VRef q -> q < length h) -> (forall q, vb = VRef q -> q < length h) ->
  exists n, fits_heap classes h rank (mkobj c_failsafe [("clustering"%string, vk); ("verbose"%string, vb)]) n.
Proof.
  intros Hk Hv. set (rk := fun v : value => match v with VRef q => rank q | _ => 0 end). exists (S (rk vk + rk vb)).
  destruct (co_failsafe _ _ _ _ _ CO) as [P [E _]]. constructor; simpl.
  - exact P.
  - constructor; [simpl; intros [X|[]]; discriminate|]. constructor; [simpl; tauto|constructor].
  - intros k v [X|[X|[]]] _; injection X as <- _; pname.
  - intros k q. unfold attr_of. simpl. destruct (String.eqb_spec k "clustering"%string).
    { intros [= ->]. simpl. split; [auto|lia]. }
    destruct (String.eqb_spec k "verbose"%string); [intros [= ->]; simpl; split; [auto|lia]|discriminate].
  - intros d Ed. rewrite E in Ed. injection Ed as <-. split.
    + split; [constructor; [simpl; intros [X|[]]; discriminate|constructor; [simpl; tauto|constructor]]|]. split.
      * intros k v [X|[X|[]]] _; injection X as <- _; pname.
      * intros k l [X|[X|[]]]; discriminate.
    + unfold params_of_class. cbn [o_class]. rewrite P. intros k Pk. unfold attr_of. simpl.
      destruct (String.eqb_spec k "clustering"%string) as [->|N1]; [split; [auto|eauto]|].
      destruct (String.eqb_spec k "verbose"%string) as [->|N2]; [split; [auto|eauto]|].
      split; [intros [v X]; discriminate|]. intros [X|[X|[]]]; congruence.
Qed.

(** What MapperAlgorithm.fit knows about its private attributes. *)
Definition inside (h : heap) (m : nat) (k : string) : Prop := forall q, attr h m k = Some (VRef q) -> q < length h.
Definition alg (m : nat) (h : heap) : Prop := behaves h m IsMapperAlgorithm.
Lemma alg_kept m h h' : kept h h' -> alg m h -> alg m h'.
Proof. intros K B. eapply kept_behaves; eassumption. Qed.
Lemma inside_ext h o m k : m < length h -> inside h m k -> inside (h ++ [o]) m k.
Proof. intros L H q A. unfold attr in A. rewrite nth_error_app1 in A by exact L. rewrite app_length. simpl. pose proof (H q A). lia. Qed.
Lemma inside_put h h' m k k' v : kept h h' -> inside h m k' -> k' <> k ->
  (forall l' k', (l', k') <> (m, k) -> attr h' l' k' = attr h l' k') -> attr h' m k = Some v -> inside h' m k'.
Proof. intros K H N E _ q A. rewrite E in A by congruence. pose proof (kept_length _ _ K). pose proof (H q A). lia. Qed.
Lemma inside_put_new h h' m k v : kept h h' -> (forall q, v = VRef q -> q < length h) -> attr h' m k = Some v -> inside h' m k.
Proof. intros K H A q A'. rewrite A in A'. injection A' as ->. pose proof (kept_length _ _ K). pose proof (H q eq_refl). lia. Qed.

Definition ready (m : nat) (h : heap) : Prop := alg m h /\ inside h m "_clustering".
Lemma tri_default {B : Type} lim m (f : unit -> prog B) (R : B -> heap -> Prop) : (forall u, tri (ready m) (f u) R) ->
  tri (alg m)
    (prg t <- new (mkobj c_tclust []);
     prg _ <- put m "_clustering" (VRef t);
     prg v <- get m "clustering";
     prg u <- match v with VNone => lift (Ok tt) | _ => prg l <- pclone classes lim v; put m "_clustering" (VRef l) end;
     f u) R.
Proof.
  intro Hf.
  assert (W : forall (Q : heap -> Prop) t, (forall h, Q h -> alg m h /\ t < length h) ->
    tri Q (put m "_clustering" (VRef t)) (fun _ h => ready m h)).
  { intros Q t HQ. eapply tri_imp; [apply tri_put; reflexivity|]. intros u h' rank _ [h [HP [K [A E]]]].
    destruct (HQ h HP) as [H2 H3]. split; [eapply alg_kept; eassumption|]. eapply inside_put_new; [exact K| |exact A].
    intros q [= <-]. exact H3. }
  eapply tri_bind; [apply tri_new; intros h rank I _; exists 0; eapply tclust_fits, CO|]. intro t.
  eapply tri_bind; [apply W|].
  { intros h' [h [HP [-> ->]]]. split; [eapply alg_kept; [apply new_kept|exact HP]|]. rewrite app_length. simpl. lia. }
  intro u. eapply tri_bind; [apply tri_get|]. intro v. cbv beta.
  eapply tri_bind with (Q := fun _ h => ready m h); [|exact Hf].
  assert (Y : tri (fun h => ready m h /\ attr h m "clustering" = Some v) (prg l <- pclone classes lim v; put m "_clustering" (VRef l)) (fun _ h => ready m h)).
  { eapply tri_bind; [apply tri_clone|]. intro c. cbv beta. apply W. intros h' [h [o' [[[H1 _] _] [-> ->]]]].
    split; [eapply alg_kept; [apply new_kept|exact H1]|]. rewrite app_length. simpl. lia. }
  assert (Z : tri (fun h => ready m h /\ attr h m "clustering" = Some v) (lift (Ok tt)) (fun _ h => ready m h)).
  { eapply tri_imp; [apply tri_lift|]. intros u' h rank _ [[H _] _]. exact H. }
  destruct v; assumption.
Qed.

Lemma tri_ma_prepare lim m X y : tri (alg m) (ma_prepare is_nan is_inf to_float classes c_tcover c_tclust c_failsafe lim m X y) anyq.
Proof.
  unfold ma_prepare. eapply tri_bind; [apply tri_lift|]. intros [X' y']. cbn beta iota.
  eapply tri_bind with (Q := fun t h => alg m h /\ t < length h).
  { eapply tri_imp; [apply tri_new; intros h rank I _; exists 0; eapply tcover_fits, CO|].
    intros t h' rank _ [h [[A _] [-> ->]]]. split; [eapply alg_kept; [apply new_kept|exact A]|rewrite app_length; simpl; lia]. }
  intro t. eapply tri_bind with (Q := fun _ h => alg m h).
  { eapply tri_imp; [apply tri_put; reflexivity|]. intros _ h' rank _ [h [[A _] [K _]]]. eapply alg_kept; eassumption. }
  intro u; cbv beta; clear u. eapply tri_bind with (Q := fun _ h => alg m h).
  { eapply tri_imp; [apply tri_get|]. intros v h rank _ [A _]. exact A. }
  intro c. eapply tri_bind with (Q := fun _ h => alg m h).
  { assert (Y : tri (alg m) (prg l <- pclone classes lim c; put m "_cover" (VRef l)) (fun _ h => alg m h)).
    { eapply tri_bind with (Q := fun _ h => alg m h).
      - eapply tri_imp; [apply tri_clone|]. intros l h' rank _ [h [o' [A [-> _]]]]. eapply alg_kept; [apply new_kept|exact A].
      - intro l. eapply tri_imp; [apply tri_put; reflexivity|]. intros _ h' rank _ [h [A [K _]]]. eapply alg_kept; eassumption. }
    assert (Z : tri (alg m) (lift (Ok tt)) (fun _ h => alg m h)).
    { eapply tri_imp; [apply tri_lift|]. intros _ h rank _ [A _]. exact A. }
    destruct c; assumption. }
  intro u; cbv beta; clear u. 
  apply tri_default. intro u; clear u. set (G := ready m).
  eapply tri_bind with (Q := fun vb h => G h /\ forall q, vb = VRef q -> q < length h).
  { eapply tri_imp; [apply tri_get|]. intros vb h rank [W _] [[A B] E]. split; [split; assumption|]. intros q ->.
    destruct A as [o [N Bh]]. eapply (ho_refs _ _ _ W); [|exact E]. exists o. split; [exact N|].
    rewrite (co_mixin _ _ _ _ _ CO) by tauto. split; [pname|]. unfold attr in E. rewrite N in E. eauto. }
  intro vb. set (G2 := fun h => G h /\ inside h m "_verbose"). eapply tri_bind with (Q := fun _ h => G2 h).
  { eapply tri_imp; [apply tri_put; reflexivity|]. intros _ h' rank _ [h [[[A B] V] [K [E S]]]]. split; [split|].
    - eapply alg_kept; eassumption.
    - eapply inside_put with (k := "_verbose"%string); [exact K|exact B|discriminate|exact S|exact E].
    - eapply inside_put_new; eassumption. }
  intro u; cbv beta; clear u. eapply tri_bind with (Q := fun _ h => G2 h).
  { eapply tri_imp; [apply tri_get|]. intros v h rank _ [A _]. exact A. }
  intro fs. eapply tri_bind with (Q := fun _ h => G2 h).
  { eapply tri_imp; [apply tri_put; reflexivity|]. intros _ h' rank _ [h [[[A B] V] [K [E S]]]]. split; [split|].
    - eapply alg_kept; eassumption.
    - eapply inside_put with (k := "_failsafe"%string); [exact K|exact B|discriminate|exact S|exact E].
    - eapply inside_put with (k := "_failsafe"%string); [exact K|exact V|discriminate|exact S|exact E]. }
  intro u; cbv beta; clear u. eapply tri_bind with (Q := fun _ h => G2 h).
  { eapply tri_imp; [apply tri_get|]. intros v h rank _ [A _]. exact A. }
  intro fs1. eapply tri_bind with (Q := anyq).
  { destruct (truthy fs1); [|apply safe_pre, safe_lift].
    eapply tri_bind with (Q := fun k1 h => G2 h /\ forall q, k1 = VRef q -> q < length h).
    { eapply tri_imp; [apply tri_get|]. intros v h rank _ [A E]. split; [exact A|]. intros q ->. destruct A as [[_ B] _]. apply B, E. }
    intro k1. eapply tri_bind with (Q := fun vb1 h => (forall q, k1 = VRef q -> q < length h) /\ forall q, vb1 = VRef q -> q < length h).
    { eapply tri_imp; [apply tri_get|]. intros v h rank _ [[A Hk] E]. split; [exact Hk|]. intros q ->. destruct A as [_ B]. apply B, E. }
    intro vb1. eapply tri_bind with (Q := anyq); [|intro l; apply safe_put; reflexivity].
    eapply tri_safe, tri_new. intros h rank I [H1 H2]. apply failsafe_fits_any; assumption. }
  intro u. apply safe_pre. safes.
Qed.

Lemma tri_ma_fit lim m X y : tri (alg m) (ma_fit is_nan is_inf to_float classes beh c_tcover c_tclust c_failsafe fitc lim m X y) anyq.
Proof.
  unfold ma_fit. eapply tri_bind; [apply tri_ma_prepare|]. intros [[[X' y'] cover] cl]. cbn beta iota. apply safe_pre.
  unfold ma_finish, set_n_features_in. safes. apply safe_graph.
Qed.
End WithFit.

Lemma safe_fit_clust : forall lim r xs, safe (fit_clust is_nan is_inf to_float classes beh c_tcover c_tclust lim r xs).
Proof.
  induction lim as [|lim IH]; intros r xs; cbn [fit_clust]; [apply safe_lift|]. safes.
  all: try (apply safe_mc_fit; exact IH).
  all: apply tri_catch; [safes; apply IH|]; intro e; destruct e; safes.
Qed.
End History.
