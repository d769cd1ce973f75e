(** The trees with explicit calls follow the trees with a total metric. *)
From Verif Require Import Base SpecArray BaseFacts ModelQuickselect ModelHeap ModelVPTree ModelCalls.

Section Track.
Context {T D : Type}.
Variable ev : T -> T -> res D.
Variable metric : T -> T -> D.
Variables leb ltb : D -> D -> bool.
Variable gap : D -> D -> D.
Variable zero : D.
Hypothesis Hag : forall x y d, ev x y = Ok d -> metric x y = d.
Notation varr := (qstate D nat bool).

(** Runs of [m] give what [r] says or raise what a call on [P] raises; their calls are on [P]. *)
Definition raised (P : T -> T -> Prop) (e : exn) : Prop := exists x y, P x y /\ ev x y = Err e.
Definition tracks {A} (P : T -> T -> Prop) (Q : A -> Prop) (m : M A) (r : res A) : Prop :=
  forall w, match m w with
            | Ok (x, w') => r = Ok x /\ Q x /\
                exists l, w' = l ++ w /\ Forall (fun p => P (fst p) (snd p)) l
            | Err e => r = Err e \/ raised P e
            end.
Definition any {A : Type} (_ : A) : Prop := True.

Lemma tracks_weaken {A} (P P' : T -> T -> Prop) (Q Q' : A -> Prop) m r :
  (forall x y, P x y -> P' x y) -> (forall x, Q x -> Q' x) -> tracks P Q m r -> tracks P' Q' m r.
Proof.
  intros HP HQ H w. specialize (H w). destruct (m w) as [[x w']|e].
  - destruct H as [E [q [l [L F]]]]. split; [exact E|]. split; [auto|]. exists l. split; [exact L|].
    eapply Forall_impl; [|exact F]. intros p. apply HP.
  - destruct H as [H|[x [y [p H]]]]; [left; exact H|right; exists x, y; auto].
Qed.

Lemma tracks_ret {A} P (Q : A -> Prop) x : Q x -> tracks P Q (retM x) (Ok x).
Proof. intros q w. split; [reflexivity|]. split; [exact q|]. exists []. split; auto. Qed.

Lemma tracks_lift {A} P (Q : A -> Prop) r :
  (forall x, r = Ok x -> Q x) -> tracks P Q (liftM r) r.
Proof.
  intros H w. unfold liftM. destruct r as [x|e]; simpl; [|left; reflexivity].
  split; [reflexivity|]. split; [auto|]. exists []. split; auto.
Qed.

Lemma tracks_lift_any {A} P (r : res A) : tracks P any (liftM r) r.
Proof. apply tracks_lift. intros. exact I. Qed.

Lemma tracks_bind {A B} P (Q : A -> Prop) (Q' : B -> Prop) m r k k' :
  tracks P Q m r -> (forall x, Q x -> tracks P Q' (k x) (k' x)) ->
  tracks P Q' (bindM m k) (bind r k').
Proof.
  intros H K w. unfold bindM. specialize (H w). destruct (m w) as [[x w']|e]; simpl.
  - destruct H as [-> [q [l [-> F]]]]. simpl. specialize (K x q (l ++ w)).
    destruct (k x (l ++ w)) as [[y w'']|e'].
    + destruct K as [E [q' [l' [-> F']]]]. split; [exact E|]. split; [exact q'|].
      exists (l' ++ l). split; [apply app_assoc|]. apply Forall_app. auto.
    + exact K.
  - destruct H as [->|H]; [left; reflexivity|right; exact H].
Qed.

Lemma tracks_ask (P : T -> T -> Prop) x y : P x y -> tracks P any (ask ev x y) (Ok (metric x y)).
Proof.
  intros p w. unfold ask. destruct (ev x y) as [d|e] eqn:E; simpl.
  - split; [f_equal; apply Hag; exact E|]. split; [exact I|].
    exists [(x, y)]. split; [reflexivity|]. constructor; auto.
  - right. exists x, y. auto.
Qed.

(** After a call, the pure program goes on with the value of the metric. *)
Lemma tracks_ask_bind {B} (P : T -> T -> Prop) (Q' : B -> Prop) x y k k' :
  P x y -> (forall d, tracks P Q' (k d) (k' d)) ->
  tracks P Q' (bindM (ask ev x y) k) (k' (metric x y)).
Proof.
  intros p H. exact (tracks_bind P any Q' _ (Ok (metric x y)) k k' (tracks_ask P x y p)
                       (fun d _ => H d)).
Qed.

Lemma tracks_for_range {S} P n : forall s (body : nat -> S -> M S) body' st,
  (forall j st, tracks P any (body j st) (body' j st)) ->
  tracks P any (for_rangeM n s body st) (for_range n s body' st).
Proof.
  induction n as [|n IH]; intros s body body' st H; simpl; [apply tracks_ret; exact I|].
  apply tracks_bind with (Q := any); auto.
Qed.

Lemma tracks_for_each {A S} P (R : A -> Prop) l : forall (body : A -> S -> M S) body' st,
  Forall R l -> (forall x st, R x -> tracks P any (body x st) (body' x st)) ->
  tracks P any (for_eachM l body st) (for_each l body' st).
Proof.
  induction l as [|x l IH]; intros body body' st F H; simpl; [apply tracks_ret; exact I|].
  inversion F; subst. apply tracks_bind with (Q := any); auto.
Qed.

Section Tree.
Variable par : vparams D.
Variable dataset : list T.
(** Calls of a build: on two entries of the dataset. *)
Definition both (x y : T) : Prop := In x dataset /\ In y dataset.
(** Calls of a query: on the query point and an entry, in some order. *)
Definition with_q (q x y : T) : Prop := (x = q /\ In y dataset) \/ (In x dataset /\ y = q).
Notation inX := (fun x => In x dataset).

Lemma rd_in {A} (l : list A) i x : rd l i = Ok x -> In x l.
Proof. intro H. apply rd_ok in H. eapply nth_error_In; eauto. Qed.

Lemma get_point_in (st : varr) i x : get_point dataset st i = Ok x -> In x dataset.
Proof.
  unfold get_point. destruct (get_index st i) as [ix|]; simpl; [|discriminate]. apply rd_in.
Qed.

Lemma map_res_all {A B} (R : B -> Prop) (f : A -> res B) l ys :
  (forall x y, f x = Ok y -> R y) -> map_res f l = Ok ys -> Forall R ys.
Proof.
  intro H. revert ys. induction l as [|x l IH]; intros ys E; simpl in E.
  - injection E as <-. constructor.
  - destruct (f x) as [y|] eqn:Ey; simpl in E; [|discriminate].
    destruct (map_res f l) as [ys'|]; simpl in E; [|discriminate].
    injection E as <-. constructor; eauto.
Qed.

Lemma map_res_len {A B} (f : A -> res B) l : forall ys, map_res f l = Ok ys -> length ys = length l.
Proof.
  induction l as [|x l IH]; intros ys E; simpl in E.
  - injection E as <-. reflexivity.
  - destruct (f x) as [y|]; simpl in E; [|discriminate].
    destruct (map_res f l) as [ys'|]; simpl in E; [|discriminate].
    injection E as <-. simpl. f_equal. auto.
Qed.

Lemma get_points_in (st : varr) s e xs : get_points dataset st s e = Ok xs -> Forall inX xs.
Proof.
  unfold get_points. destruct (qextra1 st) as [l|]; [|discriminate].
  apply map_res_all. intros x y. apply rd_in.
Qed.

Lemma get_points_len (st : varr) s e xs : get_points dataset st s e = Ok xs -> length xs <= e - s.
Proof.
  unfold get_points. destruct (qextra1 st) as [l|]; [|discriminate].
  intro H. rewrite (map_res_len _ _ _ H). unfold slice. rewrite firstn_length. lia.
Qed.

Lemma tracks_get_point {B} P (Q' : B -> Prop) (st : varr) i k k' :
  (forall x, In x dataset -> tracks P Q' (k x) (k' x)) ->
  tracks P Q' (bindM (liftM (get_point dataset st i)) k) (bind (get_point dataset st i) k').
Proof.
  intro H. apply tracks_bind with (Q := inX); [|exact H].
  apply tracks_lift. intros x. apply get_point_in.
Qed.

Lemma tracks_get_points {B} P (Q' : B -> Prop) (st : varr) s e k k' :
  (forall xs, Forall inX xs -> tracks P Q' (k xs) (k' xs)) ->
  tracks P Q' (bindM (liftM (get_points dataset st s e)) k) (bind (get_points dataset st s e) k').
Proof.
  intro H. apply tracks_bind with (Q := Forall inX); [|exact H].
  apply tracks_lift. intros x. apply get_points_in.
Qed.

Lemma tracks_step {A B} P (Q' : B -> Prop) (r : res A) k k' :
  (forall x, tracks P Q' (k x) (k' x)) -> tracks P Q' (bindM (liftM r) k) (bind r k').
Proof. intro H. apply tracks_bind with (Q := any); [apply tracks_lift_any|auto]. Qed.

Lemma tracks_then {A B} P (Q' : B -> Prop) (m : M A) r k k' :
  tracks P any m r -> (forall x, tracks P Q' (k x) (k' x)) -> tracks P Q' (bindM m k) (bind r k').
Proof. intros H K. apply tracks_bind with (Q := any); auto. Qed.

Ltac done := apply tracks_ret; exact I.

(** *** Build *)
Lemma tracks_furthest st s e i :
  tracks both any (furthest_c ev ltb zero dataset st s e i) (furthest metric ltb zero dataset st s e i).
Proof.
  unfold furthest_c, furthest. apply tracks_get_point. intros ip Hi.
  apply tracks_then; [|intro; done]. apply tracks_for_range. intros j [fd far].
  apply tracks_get_point. intros jp Hj.
  apply (tracks_ask_bind both any ip jp _
           (fun j_dist => if ltb fd j_dist then Ok (j_dist, j) else Ok (fd, far))); [split; assumption|].
  intro d. destruct (ltb fd d); done.
Qed.

Lemma tracks_pivoting c st s e :
  tracks both any (pivoting_c ev ltb zero par dataset c st s e)
    (pivoting_ metric ltb zero par dataset c st s e).
Proof.
  unfold pivoting_c, pivoting_. destruct (pivot_kind par).
  - done.
  - destruct (e <=? s); [done|]. cbv zeta. destruct (s <? randrange par c s e); [|done].
    apply tracks_step. intro; done.
  - destruct (e <=? s); [done|]. cbv zeta. apply tracks_then; [apply tracks_furthest|intro f1].
    apply tracks_then; [apply tracks_furthest|intro f2].
    destruct (s <? f2); [|done]. apply tracks_step. intro; done.
Qed.

Lemma tracks_update_step v flag i st : In v dataset ->
  tracks both any (update_step_c ev dataset v flag i st) (update_step metric dataset v flag i st).
Proof.
  intro Hv. unfold update_step_c, update_step. apply tracks_get_point. intros p Hp.
  apply (tracks_ask_bind both any v p _
    (fun d => do st1 <- set_distance st i d;
              match flag with Some b => set_terminal st1 i b | None => Ok st1 end)); [split; assumption|].
  intro d. apply tracks_step. intro st1. destruct flag; [apply tracks_lift_any|done].
Qed.

Lemma tracks_update_flat c st s e :
  tracks both any (update_flat_c ev ltb zero par dataset c st s e)
    (update_flat metric ltb zero par dataset c st s e).
Proof.
  unfold update_flat_c, update_flat. apply tracks_then; [apply tracks_pivoting|].
  intros [c1 st1]. apply tracks_get_point. intros v Hv. apply tracks_step. intro flag.
  apply tracks_then; [|intro; done]. apply tracks_for_range.
  intros j st'. apply tracks_update_step, Hv.
Qed.

Lemma tracks_update_hier c st s e :
  tracks both any (update_hier_c ev ltb zero par dataset c st s e)
    (update_hier metric ltb zero par dataset c st s e).
Proof.
  unfold update_hier_c, update_hier. apply tracks_then; [apply tracks_pivoting|].
  intros [c1 st1]. apply tracks_get_point. intros v Hv.
  apply tracks_then; [|intro; done]. apply tracks_for_range.
  intros j st'. apply tracks_update_step, Hv.
Qed.

Lemma tracks_build_loop fuel : forall stack c st,
  tracks both any (build_loop_c ev ltb zero par dataset fuel stack c st)
    (build_loop metric ltb zero par dataset fuel stack c st).
Proof.
  induction fuel as [|fuel IH]; intros [|[s e] rest] c st; simpl; try done; try apply tracks_lift_any.
  apply tracks_then; [apply tracks_update_flat|]. intros [c1 st1].
  apply tracks_step. intro st2. apply tracks_step. intro r.
  destruct ((leaf_capacity par + (leaf_capacity par + 0) <? e - s) && ltb (leaf_radius par) r);
    apply tracks_step; intro; apply tracks_step; intro; apply IH.
Qed.

Lemma tracks_build_flat :
  tracks both any (build_flat_c ev ltb zero par dataset) (build_flat metric ltb zero par dataset).
Proof.
  unfold build_flat_c, build_flat. cbv zeta. destruct (0 <? length dataset); [apply tracks_build_loop|done].
Qed.

(** All centres of a tree are entries of the dataset. *)
Fixpoint centers (t : @htree T D) : list T :=
  match t with HLeaf _ _ => [] | HNode _ c l r => c :: centers l ++ centers r end.
Definition from_X (t : @htree T D) : Prop := Forall inX (centers t).

Lemma tracks_build_rec fuel : forall s e c st,
  tracks both (fun r => from_X (fst r)) (build_rec_c ev leb ltb zero par dataset fuel s e c st)
    (build_rec metric leb ltb zero par dataset fuel s e c st).
Proof.
  induction fuel as [|fuel IH]; intros s e c st; cbn [build_rec_c build_rec];
    [apply tracks_lift; discriminate|].
  destruct (e - s <=? leaf_capacity par); [apply tracks_ret; constructor|]. cbv zeta.
  apply tracks_then; [apply tracks_update_hier|]. intros [c1 st1].
  apply tracks_get_point. intros v Hv. apply tracks_step. intro st2. apply tracks_step. intro r.
  apply tracks_step. intro st3. destruct (leb r (leaf_radius par)).
  - apply tracks_ret. repeat constructor. exact Hv.
  - eapply tracks_bind; [apply IH|]. intros [lt_ [c2 st4]] Hl.
    eapply tracks_bind; [apply IH|]. intros [rt_ [c3 st5]] Hr.
    apply tracks_ret. simpl in *. constructor; [exact Hv|]. apply Forall_app. auto.
Qed.

Lemma tracks_build_hier :
  tracks both (fun r => from_X (fst r)) (build_hier_c ev leb ltb zero par dataset)
    (build_hier metric leb ltb zero par dataset).
Proof.
  unfold build_hier_c, build_hier. cbv zeta. destruct (0 <? length dataset).
  - eapply tracks_bind; [apply tracks_build_rec|]. intros r Hr. apply tracks_ret. exact Hr.
  - apply tracks_ret. constructor.
Qed.

(** *** Ball search *)
Lemma for_each_leaf q eps incl xs : forall result,
  for_each xs (fun x result0 =>
    Ok (if inside leb ltb eps incl (metric q x) then result0 ++ [x] else result0)) result =
  Ok (ball_leaf metric leb ltb q eps incl xs result).
Proof.
  unfold ball_leaf. induction xs as [|x xs IH]; intro result; simpl; [rewrite app_nil_r; reflexivity|].
  rewrite IH. destruct (inside leb ltb eps incl (metric q x)); [rewrite <- app_assoc|]; reflexivity.
Qed.

Lemma tracks_ball_leaf q eps incl xs result : Forall inX xs ->
  tracks (with_q q) any (ball_leaf_c ev leb ltb q eps incl xs result)
    (Ok (ball_leaf metric leb ltb q eps incl xs result)).
Proof.
  intro F. rewrite <- for_each_leaf. unfold ball_leaf_c. apply tracks_for_each with (R := inX); [exact F|].
  intros x st Hx.
  apply (tracks_ask_bind (with_q q) any q x _
    (fun d => Ok (if inside leb ltb eps incl d then st ++ [x] else st))); [left; auto|intro; done].
Qed.

Lemma tracks_ball_loop fuel st q eps incl : forall stack result,
  tracks (with_q q) any (ball_loop_c ev leb ltb gap dataset fuel st q eps incl stack result)
    (ball_loop metric leb ltb gap dataset fuel st q eps incl stack result).
Proof.
  induction fuel as [|fuel IH]; intros [|[s e] rest] result; simpl; try done; try apply tracks_lift_any.
  apply tracks_step. intro r. apply tracks_get_point. intros v Hv. apply tracks_step. intros [|].
  - apply tracks_get_points. intros xs F.
    apply (tracks_bind (with_q q) any any _ _ _
      (fun res1 => ball_loop metric leb ltb gap dataset fuel st q eps incl rest res1)
      (tracks_ball_leaf q eps incl xs result F)). intros res1 _. apply IH.
  - apply (tracks_ask_bind (with_q q) any q v _
      (fun dist => let '(fst_, snd_) := if leb dist r then ((S s, mid_ s e), (mid_ s e, e))
                                 else ((mid_ s e, e), (S s, mid_ s e)) in
         ball_loop metric leb ltb gap dataset fuel st q eps incl
           (fst_ :: (if leb (gap dist r) eps then snd_ :: rest else rest))
           (if inside leb ltb eps incl dist then result ++ [v] else result))); [left; auto|].
    intro d. destruct (leb d r); apply IH.
Qed.

Lemma tracks_ball_rec st q eps incl t : from_X t -> forall result,
  tracks (with_q q) any (ball_rec_c ev leb ltb gap dataset st q eps incl t result)
    (ball_rec metric leb ltb gap dataset st q eps incl t result).
Proof.
  unfold from_X. induction t as [s e|r v l IHl rt IHr]; simpl; intros F result.
  - apply tracks_get_points. intros xs Fx. apply tracks_ball_leaf, Fx.
  - inversion F as [|? ? Hv Fc]; subst. apply Forall_app in Fc. destruct Fc as [Fl Fr].
    apply (tracks_ask_bind (with_q q) any v q _
      (fun dist => if leb dist r then
         do result2 <- ball_rec metric leb ltb gap dataset st q eps incl l
              (if inside leb ltb eps incl dist then result ++ [v] else result);
         if leb (gap dist r) eps then ball_rec metric leb ltb gap dataset st q eps incl rt result2
         else Ok result2
       else
         do result2 <- ball_rec metric leb ltb gap dataset st q eps incl rt
              (if inside leb ltb eps incl dist then result ++ [v] else result);
         if leb (gap dist r) eps then ball_rec metric leb ltb gap dataset st q eps incl l result2
         else Ok result2)); [right; auto|].
    intro d. destruct (leb d r); (apply tracks_then; [auto|intro res2]);
      destruct (leb (gap d r) eps); auto; done.
Qed.

(** *** k nearest neighbours *)
Lemma tracks_process k q x s : In x dataset ->
  tracks (with_q q) any (process_c ev leb ltb k q x s) (process metric leb ltb k q x s).
Proof.
  intro Hx. destruct s as [h radius]. unfold process_c, process.
  apply (tracks_ask_bind (with_q q) any q x _
    (fun dist => if match radius with None => false | Some r => leb r dist end
       then Ok (dist, (h, radius))
       else do h1 <- heap_add ltb h dist x;
            do h2 <- pop_while ltb (length h1) k h1;
            Ok (dist, (h2, if length h2 =? k then
                             match heap_top h2 with None => radius | Some (d, _) => Some d end
                           else radius)))); [left; auto|].
  intro d. destruct (match radius with None => false | Some r => leb r d end); [done|].
  apply tracks_step. intro h1. apply tracks_step. intro h2. done.
Qed.

Lemma tracks_knn_loop fuel st k q : forall stack s,
  tracks (with_q q) any (knn_loop_c ev leb ltb gap zero dataset fuel st k q stack s)
    (knn_loop metric leb ltb gap zero dataset fuel st k q stack s).
Proof.
  induction fuel as [|fuel IH]; intros [|[[[a b] thr] act] rest] s; simpl; try done;
    try apply tracks_lift_any.
  apply tracks_step. intro r. apply tracks_get_point. intros v Hv. apply tracks_step. intros [|].
  - apply tracks_get_points. intros xs F. apply tracks_then; [|intro; apply IH].
    apply tracks_for_each with (R := inX); [exact F|]. intros x st0 Hx.
    apply tracks_then; [apply tracks_process, Hx|intro; done].
  - destruct act.
    + apply tracks_then; [apply tracks_process, Hv|]. intros [dist s1].
      destruct (leb dist r); apply IH.
    + destruct (match snd s with None => true | Some r0 => ltb thr r0 end); apply IH.
Qed.

Lemma tracks_knn_flat st q k :
  tracks (with_q q) any (knn_flat_c ev leb ltb gap zero dataset st q k)
    (knn_flat metric leb ltb gap zero dataset st q k).
Proof.
  unfold knn_flat_c, knn_flat. apply tracks_then; [apply tracks_knn_loop|]. intro s.
  apply tracks_step. intro r1. apply tracks_step. intro r2. done.
Qed.

Lemma tracks_knn_rec st k q t : from_X t -> forall h,
  tracks (with_q q) any (knn_rec_c ev leb ltb gap dataset st k q t h)
    (knn_rec metric leb ltb gap dataset st k q t h).
Proof.
  unfold from_X. induction t as [s e|r v l IHl rt IHr]; simpl; intros F h.
  - apply tracks_get_points. intros xs Fx. apply tracks_for_each with (R := inX); [exact Fx|].
    intros x h0 Hx.
    apply (tracks_ask_bind (with_q q) any q x _ (fun d => knn_offer ltb k d x h0)); [left; auto|].
    intro d. apply tracks_lift_any.
  - inversion F as [|? ? Hv Fc]; subst. apply Forall_app in Fc. destruct Fc as [Fl Fr].
    apply (tracks_ask_bind (with_q q) any v q _
      (fun dist => do h1 <- knn_offer ltb k dist v h;
         if leb dist r then
           do h2 <- knn_rec metric leb ltb gap dataset st k q l h1;
           if match get_radius k h2 with None => true | Some rad => leb (gap dist r) rad end
           then knn_rec metric leb ltb gap dataset st k q rt h2 else Ok h2
         else
           do h2 <- knn_rec metric leb ltb gap dataset st k q rt h1;
           if match get_radius k h2 with None => true | Some rad => leb (gap dist r) rad end
           then knn_rec metric leb ltb gap dataset st k q l h2 else Ok h2)); [right; auto|].
    intro d. apply tracks_step. intro h1.
    destruct (leb d r); (apply tracks_then; [auto|intro h2]);
      destruct (match get_radius k h2 with None => true | Some rad => leb (gap d r) rad end); auto; done.
Qed.

Lemma tracks_knn_hier t st q k : from_X t ->
  tracks (with_q q) any (knn_hier_c ev leb ltb gap dataset t st q k)
    (knn_hier metric leb ltb gap dataset t st q k).
Proof.
  intro F. unfold knn_hier_c, knn_hier. apply tracks_then; [apply tracks_knn_rec, F|].
  intro h. apply tracks_step. intro r. done.
Qed.
End Tree.

(** *** Façade *)
(** A tree over [X] with centres in [X]. *)
Definition tree_of (X : list T) (t : vpt T D) : Prop :=
  match t with FlatT Y _ => Y = X | HierT Y h _ => Y = X /\ from_X X h end.

Lemma tracks_vptree kind par X :
  tracks (both X) (tree_of X) (vptree_c ev leb ltb zero kind par X)
    (vptree metric leb ltb zero kind par X).
Proof.
  destruct kind; simpl.
  - apply tracks_bind with (Q := any); [apply tracks_build_flat|].
    intros a _. apply tracks_ret. reflexivity.
  - eapply tracks_bind; [apply tracks_build_hier|]. intros r Hr. apply tracks_ret. split; auto.
  - apply tracks_lift. discriminate.
Qed.

Lemma tracks_ball_search X t q eps incl : tree_of X t ->
  tracks (with_q X q) any (ball_search_c ev leb ltb gap t q eps incl)
    (ball_search metric leb ltb gap t q eps incl).
Proof.
  destruct t as [Y a|Y h a]; simpl.
  - intros ->. apply tracks_ball_loop.
  - intros [-> F]. apply tracks_ball_rec, F.
Qed.

Lemma tracks_knn_search X t q k : tree_of X t ->
  tracks (with_q X q) any (knn_search_c ev leb ltb gap zero t q k)
    (knn_search metric leb ltb gap zero t q k).
Proof.
  destruct t as [Y a|Y h a]; simpl.
  - intros ->. apply tracks_knn_flat.
  - intros [-> F]. apply tracks_knn_hier, F.
Qed.

(** What tracking says of runs from no calls. *)
Lemma tracks_run {A} P (Q : A -> Prop) m r : tracks P Q m r ->
  match m [] with
  | Ok (x, w) => r = Ok x /\ Q x /\ Forall (fun p => P (fst p) (snd p)) w
  | Err e => r = Err e \/ raised P e
  end.
Proof.
  intro H. specialize (H []). destruct (m []) as [[x w]|e]; [|exact H].
  destruct H as [E [q [l [-> F]]]]. rewrite app_nil_r. auto.
Qed.
End Track.
