(** Lemmas about the drawing helpers. *)
From Coq Require Import String.
From Verif Require Import Base BaseFacts Dict DictFacts ModelArith ModelCore SpecCore CoreLabels CoreGraph CoreProp UnionFindProp.
From Verif Require Import ModelDraw ModelPlotly SpecPlot.
Open Scope nat_scope.

(** ** Lists *)
Lemma map_res_nth {X Y} (f : X -> res Y) l ys : map_res f l = Ok ys ->
  length ys = length l /\ forall i x, nth_error l i = Some x -> exists y, nth_error ys i = Some y /\ f x = Ok y.
Proof.
  revert ys. induction l as [|a l IH]; intros ys H; simpl in H.
  - injection H as <-. split; [reflexivity|]. intros [|i] x E; discriminate.
  - apply bind_ok in H. destruct H as [y [H1 H]]. apply bind_ok in H. destruct H as [r [H2 H]]. injection H as <-.
    destruct (IH r H2) as [L N]. split; [simpl; lia|]. intros [|i] x E; simpl in E; [injection E as <-; exists y; auto|].
    exact (N i x E).
Qed.
Lemma map_res_total {X Y} (f : X -> res Y) l : (forall x, In x l -> exists y, f x = Ok y) -> exists ys, map_res f l = Ok ys.
Proof.
  induction l as [|a l IH]; intro H; simpl; [eauto|].
  destruct (H a (or_introl eq_refl)) as [y ->]. destruct IH as [ys ->]; [intros; apply H; right; assumption|]. simpl. eauto.
Qed.

(** ** Edges *)
Lemma edges_from_in adj : forall seen u v,
  In (u, v) (edges_from seen adj) <->
  exists i nb, nth_error adj i = Some (u, nb) /\ In v nb /\ ~ In v seen /\ forall j nb', j < i -> nth_error adj j <> Some (v, nb').
Proof.
  induction adj as [|[n nbrs] adj IH]; intros seen u v; simpl.
  - split; [tauto|]. intros [[|i] [nb [H _]]]; discriminate.
  - rewrite in_app_iff, in_map_iff, IH. split.
    + intros [[w [E I]]|[i [nb [H1 [H2 [H3 H4]]]]]].
      * injection E as -> ->. apply filter_In in I. destruct I as [I1 I2]. exists 0, nbrs. repeat split; auto.
        -- intro K. apply negb_true_iff in I2. assert (T : existsb (Z.eqb v) seen = true); [|congruence].
           apply existsb_exists. exists v. split; [exact K|apply Z.eqb_refl].
        -- intros j nb' L. lia.
      * exists (S i), nb. repeat split; auto.
        -- intro K. apply H3. right. exact K.
        -- intros [|j] nb' L K; simpl in K.
           ++ injection K as -> _. apply H3. left. reflexivity.
           ++ exact (H4 j nb' ltac:(lia) K).
    + intros [[|i] [nb [H1 [H2 [H3 H4]]]]]; simpl in H1.
      * injection H1 as -> ->. left. exists v. split; [reflexivity|]. apply filter_In. split; [exact H2|].
        apply negb_true_iff. destruct (existsb (Z.eqb v) seen) eqn:E; [|reflexivity].
        apply existsb_exists in E. destruct E as [w [K1 K2]]. apply Z.eqb_eq in K2. subst w. contradiction.
      * right. exists i, nb. repeat split; auto.
        -- intros [K|K]; [|contradiction]. subst n. exact (H4 0 nbrs ltac:(lia) eq_refl).
        -- intros j nb' L. exact (H4 (S j) nb' ltac:(lia)).
Qed.

Lemma NoDup_app' {X} (a b : list X) : NoDup a -> NoDup b -> (forall x, In x a -> ~ In x b) -> NoDup (a ++ b).
Proof.
  induction a as [|x a IH]; simpl; intros Ha Hb D; [exact Hb|].
  inversion Ha; subst. constructor.
  - rewrite in_app_iff. intros [K|K]; [contradiction|exact (D x (or_introl eq_refl) K)].
  - apply IH; auto.
Qed.

Lemma edges_from_nodup adj : forall seen, NoDup (map fst adj) -> (forall n nb, In (n, nb) adj -> NoDup nb) ->
  NoDup (edges_from seen adj).
Proof.
  induction adj as [|[n nbrs] adj IH]; intros seen K N; simpl; [constructor|].
  inversion K as [|? ? K1 K2]; subst. apply NoDup_app'.
  - apply FinFun.Injective_map_NoDup; [intros a b E; congruence|]. apply NoDup_filter. apply (N n). left. reflexivity.
  - apply IH; [exact K2|]. intros; eapply N; right; eauto.
  - intros [u v] I J. apply in_map_iff in I. destruct I as [w [E _]]. injection E as -> ->.
    apply edges_from_in in J. destruct J as [i [nb [J _]]]. apply K1. apply nth_error_In in J.
    apply (in_map fst) in J. exact J.
Qed.

Lemma edges_listed g : well_formed g -> symmetric_graph g -> lists_edges g (edges g).
Proof.
  intros [W1 [W2 W3]] Sy. assert (K : NoDup (map fst (g_adj g))) by (rewrite W2; exact W1).
  assert (U : forall i j u nb nb', nth_error (g_adj g) i = Some (u, nb) -> nth_error (g_adj g) j = Some (u, nb') -> i = j).
  { intros i j u nb nb' E1 E2. apply (proj1 (NoDup_nth_error (map fst (g_adj g))) K).
    - rewrite map_length. eapply nth_error_lt; eauto.
    - rewrite !nth_error_map, E1, E2. reflexivity. }
  split; [|split].
  - apply edges_from_nodup; assumption.
  - intros u v. split.
    + intro H. pose proof (Sy u v H) as H'. destruct H as [nb [H1 H2]]. destruct H' as [nb' [H1' H2']].
      apply In_nth_error in H1. destruct H1 as [i H1]. apply In_nth_error in H1'. destruct H1' as [j H1'].
      destruct (Nat.le_gt_cases i j) as [L|L].
      * left. apply edges_from_in. exists i, nb. repeat split; auto. intros k nb'' Lk E. pose proof (U _ _ _ _ _ E H1'). lia.
      * right. apply edges_from_in. exists j, nb'. repeat split; auto. intros k nb'' Lk E. pose proof (U _ _ _ _ _ E H1). lia.
    + intros [H|H]; apply edges_from_in in H; destruct H as [i [nb [H1 [H2 _]]]]; [|apply Sy]; exists nb; split; auto; eapply nth_error_In; eauto.
  - intros u v H H'. apply edges_from_in in H. apply edges_from_in in H'.
    destruct H as [i [nb [H1 [_ [_ H2]]]]]. destruct H' as [j [nb' [H1' [_ [_ H2']]]]].
    destruct (Nat.lt_total i j) as [L|[L|L]].
    + exfalso. exact (H2' i nb L H1).
    + subst j. congruence.
    + exfalso. exact (H2 j nb' L H1').
Qed.

Lemma edges_are_nodes g u v : well_formed g -> symmetric_graph g -> In (u, v) (edges g) -> has_node g u /\ has_node g v.
Proof.
  intros W Sy H. assert (Ad : adjacent g u v) by (apply (edges_listed g W Sy); auto).
  assert (N : forall a b, adjacent g a b -> has_node g a).
  { intros a b [nb [K _]]. unfold has_node. rewrite <- (proj1 (proj2 W)). apply (in_map fst) in K. exact K. }
  split; [exact (N _ _ Ad)|exact (N _ _ (Sy _ _ Ad))].
Qed.

(** ** Extremes *)
Section Extreme.
Context {T : Type}.
Variable lt : T -> T -> bool.
Variable P : T -> Prop.
Hypothesis O : strict_total_on lt P.

Lemma total_irrefl a : P a -> lt a a = false.
Proof. intro Pa. destruct (lt a a) eqn:E; [|reflexivity]. rewrite (proj1 O a a Pa Pa E) in E. discriminate. Qed.

Lemma fold_min r : forall a, P a -> Forall P r ->
  let mn := fold_left (fun m x => if lt x m then x else m) r a in
  In mn (a :: r) /\ P mn /\ lt a mn = false /\ forall x, In x r -> lt x mn = false.
Proof.
  destruct O as [O1 O2].
  induction r as [|x r IH]; intros a Pa Pr; cbn [fold_left].
  - cbv zeta. split; [left; reflexivity|]. split; [exact Pa|]. split; [apply total_irrefl, Pa|intros x []].
  - inversion Pr as [|? ? Px Pr']; subst. destruct (lt x a) eqn:E.
    + destruct (IH x Px Pr') as [I1 [I2 [I3 I4]]]. split; [|split; [|split]].
      * destruct I1 as [I1|I1]; [right; left|right; right]; assumption.
      * exact I2.
      * exact (O2 a x _ Pa Px I2 (O1 _ _ Px Pa E) I3).
      * intros y [<-|Hy]; auto.
    + destruct (IH a Pa Pr') as [I1 [I2 [I3 I4]]]. split; [|split; [|split]]; auto.
      * destruct I1 as [I1|I1]; [left|right; right]; assumption.
      * intros y [<-|Hy]; [|auto]. exact (O2 x a _ Px Pa I2 E I3).
Qed.
Lemma py_min_ok l : Forall P l -> l <> [] -> exists mn, py_min lt l = Some mn /\ In mn l /\ forall x, In x l -> lt x mn = false.
Proof.
  intros F N. destruct l as [|a r]; [contradiction|]. inversion F; subst.
  destruct (fold_min r a) as [I1 [I2 [I3 I4]]]; try assumption. eexists. split; [reflexivity|]. split; [exact I1|].
  intros x [<-|I]; auto.
Qed.
End Extreme.

Lemma py_max_min {T} (lt : T -> T -> bool) l : py_max lt l = py_min (fun a b => lt b a) l.
Proof. reflexivity. Qed.
Lemma flip_total {T} (lt : T -> T -> bool) P : strict_total_on lt P -> strict_total_on (fun a b => lt b a) P.
Proof. intros [O1 O2]. split; [intros; apply O1; auto|]. intros a b c Pa Pb Pc H1 H2. exact (O2 c b a Pc Pb Pa H2 H1). Qed.
Lemma py_max_ok {T} (lt : T -> T -> bool) P l : strict_total_on lt P -> Forall P l -> l <> [] ->
  exists mx, py_max lt l = Some mx /\ In mx l /\ forall x, In x l -> lt mx x = false.
Proof. intros O F N. rewrite py_max_min. exact (py_min_ok _ P (flip_total lt P O) l F N). Qed.

Lemma nat_total : strict_total_on Nat.ltb (fun _ => True).
Proof.
  split.
  - intros a b _ _ H. apply Nat.ltb_lt in H. apply Nat.ltb_ge. lia.
  - intros a b c _ _ _ H1 H2. apply Nat.ltb_ge in H1. apply Nat.ltb_ge in H2. apply Nat.ltb_ge. lia.
Qed.

(** ** Sizes *)
Lemma attr_size_keys g : dkeys (attr_size g) = nodes g.
Proof. unfold dkeys, attr_size, nodes. rewrite map_map. reflexivity. Qed.
Lemma attr_size_get g z n ids : well_formed g -> node_attr g z n ids -> dget Z.eqb (attr_size g) z = Some n.
Proof.
  intros W H. apply (dget_entry_nodup _ Z_eqb_decides).
  - rewrite attr_size_keys. exact (proj1 W).
  - unfold attr_size. apply in_map_iff. exists (z, (n, ids)). auto.
Qed.
Lemma max_size_largest g : g_nodes g <> [] -> largest g (max_size g).
Proof.
  intro N. unfold max_size.
  destruct (py_max_ok Nat.ltb (fun _ => True) (map snd (attr_size g)) nat_total) as [mx [-> [I1 I2]]].
  - apply Forall_forall. auto.
  - unfold attr_size. destruct (g_nodes g); [contradiction|discriminate].
  - unfold attr_size in *. rewrite map_map in *. split.
    + apply in_map_iff in I1. destruct I1 as [[z [n ids]] [E I]]. simpl in E. subst n. exists z, ids. exact I.
    + intros z n ids H. apply Nat.ltb_ge. apply I2. apply in_map_iff. exists (z, (n, ids)). auto.
Qed.
Lemma largest_unique g M M' : largest g M -> largest g M' -> M = M'.
Proof. intros [[z [i H]] H1] [[z' [i' H']] H1']. apply Nat.le_antisymm; eauto. Qed.
