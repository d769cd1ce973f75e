(** What the parameters of an object stand for does not change while parameters
    do not, and is the same for a clone. *)
From Coq Require Import String.
From Verif Require Import Base BaseFacts Dict DictFacts ModelCore ModelObjects SpecObjects ObjectFacts ObjectProp ModelValidate
  ModelLearn SpecLearn LearnLogic LearnFacts.
Open Scope nat_scope.
Open Scope list_scope.

Lemma param_name_check k : partition_ k = (k, None) -> starts_us k = false -> ends_us k = false -> k <> EmptyString -> param_name k.
Proof.
  intros P S E N. split; [exact N|]. split; [|split].
  - intros a b ->. revert P. clear. revert b. induction a as [|c a IH]; intros b P.
    + simpl in P. discriminate.
    + destruct a as [|d a].
      * simpl in P. destruct (Ascii.eqb c underscore); discriminate.
      * change (partition_ (String c (String d a) ++ "__" ++ b)) with
          (if Ascii.eqb c underscore && Ascii.eqb d underscore then (EmptyString, Some (a ++ "__" ++ b)%string)
           else let '(o, i) := partition_ (String d a ++ "__" ++ b)%string in (String c o, i)) in P.
        destruct (Ascii.eqb c underscore && Ascii.eqb d underscore); [discriminate|].
        destruct (partition_ (String d a ++ "__" ++ b)%string) as [o i] eqn:Q. injection P as Po ->. apply (IH b).
        rewrite Q. f_equal. exact Po.
  - intros r ->. discriminate S.
  - intros r ->. assert (X : ends_us (r ++ "_") = true) by (apply ends_us_spec; eauto). congruence.
Qed.
Ltac pname := apply param_name_check; [reflexivity|reflexivity|reflexivity|discriminate].

Section Stable.
Context {F O : Type}.
Variable is_nan : F -> bool.
Variable is_inf : F -> bool.
Variable to_float : O -> res F.
Variable classes : nat -> class.
Variable beh : nat -> behaviour F O.
Variables c_tcover c_tclust c_failsafe : nat.
Hypothesis CO : classes_ok classes beh c_tcover c_tclust c_failsafe.
Notation inv := (inv classes).
Notation cover_of := (cover_of classes beh).
Notation clust_of := (clust_of is_nan is_inf to_float classes beh).
Notation clustering_of := (clustering_of is_nan is_inf to_float classes beh).
Notation behaves := (behaves beh).
Notation cloneable := (cloneable classes).
Notation shares := (shares beh).
Notation copy := (copy classes).
Notation view := (view classes).

Lemma cloneable_lt h l : cloneable h l -> l < length h.
Proof. intros [o [d [N _]]]. eapply nth_error_lt, N. Qed.

Lemma view_kept h rank h' rank' l p : inv h rank -> inv h' rank' -> kept h h' -> l < length h -> view h l p -> view h' l p.
Proof. intros [W _] [W' _] K L V key v. rewrite (V key v). symmetry. eapply kept_resolves; eassumption. Qed.

Lemma view_ext h l p q : view h l p -> view h l q -> forall k, p k = q k.
Proof.
  intros Vp Vq k. destruct (p k) as [v|] eqn:E.
  - symmetry. apply Vq, Vp, E.
  - destruct (q k) as [v|] eqn:E'; [|reflexivity]. apply Vq, Vp in E'. congruence.
Qed.

Lemma attr_some_lt h l k v : attr h l k = Some v -> l < length h.
Proof. unfold attr. destruct (nth_error h l) eqn:N; [|discriminate]. intros _. eapply nth_error_lt, N. Qed.

Lemma kept_attr_some h h' l k v : kept h h' -> param_name k -> attr h l k = Some v -> attr h' l k = Some v.
Proof. intros K P A. rewrite (kept_attr _ _ _ _ K (attr_some_lt _ _ _ _ A) P). exact A. Qed.

Lemma cover_of_kept h rank h' rank' v cov : inv h rank -> inv h' rank' -> kept h h' -> cover_of h v cov -> cover_of h' v cov.
Proof.
  intros I I' K C. destruct C as [|l Cl B|l f p Cl B V].
  - constructor.
  - constructor; [eapply kept_cloneable|eapply kept_behaves]; eassumption.
  - econstructor; [eapply kept_cloneable; eassumption|eapply kept_behaves; eassumption|].
    apply (view_kept h rank h' rank'); try assumption. eapply behaves_lt, B.
Qed.

Lemma clust_of_kept h rank h' rank' r c : inv h rank -> inv h' rank' -> kept h h' -> clust_of h r c -> clust_of h' r c.
Proof.
  intros I I' K C. pose proof (cover_of_kept h rank h' rank') as KC.
  induction C as [r B|r vb B A1 A2|r vb r' c B A1 A2 C IH|r f p B P V|r vc cov nj B A1 Cv A2 A3|r vc cov r' c nj B A1 Cv A2 A3 Cl C IH].
  - constructor. eapply kept_behaves; eassumption.
  - econstructor; [eapply kept_behaves; eassumption|eapply kept_attr_some; try eassumption; pname..].
  - eapply clu_failsafe; [eapply kept_behaves; eassumption|eapply kept_attr_some; try eassumption; pname..|exact IH].
  - econstructor; [eapply kept_behaves; eassumption| |].
    + apply (kept_protocol classes _ _ _ K); [eapply behaves_lt, B|exact P].
    + apply (view_kept h rank h' rank'); try assumption. eapply behaves_lt, B.
  - eapply clu_mapper_none; [eapply kept_behaves; eassumption|eapply kept_attr_some; try eassumption; pname| |
      eapply kept_attr_some; try eassumption; pname..]. apply KC; assumption.
  - eapply clu_mapper; [eapply kept_behaves; eassumption|eapply kept_attr_some; try eassumption; pname| |
      eapply kept_attr_some; try eassumption; pname..|eapply kept_cloneable; eassumption|exact IH]. apply KC; assumption.
Qed.

Lemma clustering_of_kept h rank h' rank' v c : inv h rank -> inv h' rank' -> kept h h' -> clustering_of h v c -> clustering_of h' v c.
Proof.
  intros I I' K C. destruct C as [|r c Cl C]; constructor; [eapply kept_cloneable; eassumption|].
  apply (clust_of_kept h rank h' rank'); assumption.
Qed.

Lemma clust_of_lt h r c : clust_of h r c -> r < length h.
Proof. intro C. destruct C; eapply behaves_lt; eassumption. Qed.

(** References in parameters of library objects point into the heap, with smaller rank. *)
Lemma ref_rank h rank r k r' : inv h rank -> behaves h r IsFailSafe \/ behaves h r IsMapperClustering \/ behaves h r IsMapperAlgorithm ->
  param_name k -> attr h r k = Some (VRef r') -> r' < length h /\ rank r' < rank r.
Proof.
  intros [W _] B P A. assert (E : exists o, nth_error h r = Some o /\ c_protocol (classes (o_class o)) = Mixin).
  { destruct B as [[o [N E]]|[[o [N E]]|[o [N E]]]]; exists o; (split; [exact N|]); eapply (co_mixin _ _ _ _ _ CO); eauto. }
  destruct E as [o [N E]]. apply (ho_refs _ _ _ W r k r'); [|exact A]. exists o. split; [exact N|]. rewrite E. split; [exact P|].
  unfold attr in A. rewrite N in A. eauto.
Qed.

Lemma shares_rank h rank r l : inv h rank -> shares h r l -> l < length h /\ rank l < rank r.
Proof.
  intros I S. induction S as [r r' B A|r r' l B A S IH].
  - eapply ref_rank; eauto. pname.
  - destruct (ref_rank h rank r "clustering" r' I) as [_ H]; [tauto|pname|exact A|]. destruct IH. split; [assumption|lia].
Qed.

Lemma shares_kept h rank h' rank' r l : inv h rank -> inv h' rank' -> kept h h' -> r < length h -> shares h' r l -> shares h r l.
Proof.
  intros I I' K L S. induction S as [r r' B A|r r' l B A S IH].
  - rewrite (kept_attr _ _ _ _ K L) in A by pname. constructor; [eapply kept_behaves_inv; eassumption|exact A].
  - rewrite (kept_attr _ _ _ _ K L) in A by pname.
    assert (B' : behaves h r IsFailSafe \/ behaves h r IsMapperClustering)
      by (destruct B; [left|right]; eapply kept_behaves_inv; eassumption).
    destruct (ref_rank h rank r "clustering" r' I) as [L' _]; [tauto|pname|exact A|].
    eapply sh_below; [exact B'|exact A|apply IH, L'].
Qed.

(** *** Clones *)
Lemma copy_behaves h l h2 c b : copy h l h2 c -> behaves h l b -> behaves h2 c b.
Proof. intros [[o [o' [N [N' [C _]]]]] _] [x [Nx E]]. exists o'. split; [exact N'|]. congruence. Qed.
Lemma copy_behaves_inv h l h2 c b : copy h l h2 c -> behaves h2 c b -> behaves h l b.
Proof. intros [[o [o' [N [N' [C _]]]]] _] [x [Nx E]]. exists o. split; [exact N|]. congruence. Qed.
Lemma copy_cloneable h l h2 c : copy h l h2 c -> cloneable h l -> cloneable h2 c.
Proof.
  intros [[o [o' [N [N' [C _]]]]] _] [x [d [Nx [P E]]]]. rewrite N in Nx. injection Nx as <-. exists o', d. rewrite C. auto.
Qed.
Lemma copy_view h l h2 c p : copy h l h2 c -> view h l p -> view h2 c p.
Proof. intros [_ R] V key v. rewrite (R key v). apply V. Qed.
Lemma copy_protocol h l h2 c : copy h l h2 c -> has_protocol classes h l -> has_protocol classes h2 c.
Proof. intros [[o [o' [N [N' [C _]]]]] _] [x [Nx P]]. exists o'. split; [exact N'|]. congruence. Qed.
Lemma copy_attr h l h2 c k : copy h l h2 c -> behaves h l IsFailSafe \/ behaves h l IsMapperClustering \/ behaves h l IsMapperAlgorithm ->
  param_name k -> attr h2 c k = attr h l k.
Proof.
  intros [[o [o' [N [N' [C A]]]]] _] B P. unfold attr. rewrite N, N'. apply A; [|exact P].
  destruct B as [[x [Nx E]]|[[x [Nx E]]|[x [Nx E]]]]; rewrite N in Nx; injection Nx as <-; eapply (co_mixin _ _ _ _ _ CO); eauto.
Qed.

Lemma copy_cover_of h l h2 c cov : copy h l h2 c -> cover_of h (VRef l) cov -> cover_of h2 (VRef c) cov.
Proof.
  intros K C. inversion C as [|l' Cl B|l' f p Cl B V]; subst.
  - constructor; [eapply copy_cloneable|eapply copy_behaves]; eassumption.
  - econstructor; [eapply copy_cloneable|eapply copy_behaves|eapply copy_view]; eassumption.
Qed.

Lemma copy_clust_of h rank h2 rank2 l c cl : inv h rank -> inv h2 rank2 -> kept h h2 -> copy h l h2 c ->
  clust_of h l cl -> clust_of h2 c cl.
Proof.
  intros I I2 K Cp C. pose proof (cover_of_kept h rank h2 rank2) as KC. pose proof (clust_of_kept h rank h2 rank2) as KL.
  assert (CA : forall k v, behaves h l IsFailSafe \/ behaves h l IsMapperClustering -> param_name k ->
    attr h l k = Some v -> attr h2 c k = Some v).
  { intros k v B P A. rewrite <- A. apply (copy_attr h l h2 c k Cp); tauto. }
  destruct C as [r B|r vb B A1 A2|r vb r' c' B A1 A2 C|r f p B P V|r vc cov nj B A1 Cv A2 A3|r vc cov r' c' nj B A1 Cv A2 A3 Cl C].
  - constructor. eapply copy_behaves; eassumption.
  - econstructor; [eapply copy_behaves; eassumption|apply CA; auto; pname|apply CA; eauto; pname].
  - eapply clu_failsafe; [eapply copy_behaves; eassumption|apply CA; eauto; pname|apply CA; eauto; pname|apply KL; assumption].
  - econstructor; [eapply copy_behaves|eapply copy_protocol|eapply copy_view]; eassumption.
  - eapply clu_mapper_none; [eapply copy_behaves; eassumption|apply CA; eauto; pname|apply KC; eauto|apply CA; eauto; pname..].
  - eapply clu_mapper; [eapply copy_behaves; eassumption|apply CA; eauto; pname|apply KC; eauto|apply CA; eauto; pname|apply CA; eauto; pname
      |eapply kept_cloneable; eassumption|apply KL; assumption].
Qed.

Lemma copy_shares h rank h2 rank2 l c x : inv h rank -> inv h2 rank2 -> kept h h2 -> copy h l h2 c ->
  shares h2 c x -> shares h l x.
Proof.
  intros I I2 K Cp S. inversion S as [r r' B A|r r' y B A S']; subst.
  - assert (B' : behaves h l IsFailSafe) by (eapply copy_behaves_inv; eassumption).
    rewrite (copy_attr h l h2 c _ Cp) in A; [|tauto|pname]. constructor; assumption.
  - assert (B' : behaves h l IsFailSafe \/ behaves h l IsMapperClustering)
      by (destruct B; [left|right]; eapply copy_behaves_inv; eassumption).
    rewrite (copy_attr h l h2 c _ Cp) in A; [|tauto|pname].
    destruct (ref_rank h rank l "clustering" r' I) as [L' _]; [tauto|pname|exact A|].
    eapply sh_below; [exact B'|exact A|]. apply (shares_kept h rank h2 rank2); assumption.
Qed.

(** The objects the estimators make themselves. *)
Lemma mixin_empty_fits h rank o : c_protocol (classes (o_class o)) = Mixin -> c_init (classes (o_class o)) = Some [] ->
  o_attrs o = [] -> fits_heap classes h rank o 0.
Proof.
  intros P E A. constructor; rewrite ?A; simpl; auto.
  - constructor.
  - intros k v [].
  - intros k r H. unfold attr_of in H. rewrite A in H. discriminate.
  - intros d Ed. rewrite E in Ed. injection Ed as <-. split; [|].
    + split; [constructor|]. split; [intros k v []|intros k l []].
    + unfold params_of_class. rewrite P. intros k _. unfold attr_of. rewrite A. simpl. split; [intros [v X]; discriminate|intros []].
Qed.
Lemma tcover_fits h rank : fits_heap classes h rank (mkobj c_tcover []) 0.
Proof. apply mixin_empty_fits; try reflexivity; simpl; apply (co_tcover _ _ _ _ _ CO). Qed.
Lemma tclust_fits h rank : fits_heap classes h rank (mkobj c_tclust []) 0.
Proof. apply mixin_empty_fits; try reflexivity; simpl; apply (co_tclust _ _ _ _ _ CO). Qed.
Lemma failsafe_fits h rank r vb n : r < length h -> rank r < n -> (forall q, vb = VRef q -> q < length h /\ rank q < n) ->
  fits_heap classes h rank (mkobj c_failsafe [("clustering"%string, VRef r); ("verbose"%string, vb)]) n.
Proof.
  intros L Hr Hv. destruct (co_failsafe _ _ _ _ _ CO) as [P [E _]]. constructor; simpl.
  - exact P.
  - constructor; [simpl; intros [X|[]]; discriminate|]. constructor; [simpl; tauto|constructor].
  - intros k v [X|[X|[]]] _; injection X as <- _; pname.
  - intros k q. unfold attr_of. simpl. destruct (String.eqb_spec k "clustering"%string); [intros [= <-]; auto|].
    destruct (String.eqb_spec k "verbose"%string); [intros [= X]; apply Hv, X|discriminate].
  - intros d Ed. rewrite E in Ed. injection Ed as <-. split.
    + split; [constructor; [simpl; intros [X|[]]; discriminate|constructor; [simpl; tauto|constructor]]|]. split.
      * intros k v [X|[X|[]]] _; injection X as <- _; pname.
      * intros k l [X|[X|[]]]; discriminate.
    + unfold params_of_class. simpl. rewrite P. intros k _. unfold attr_of. rewrite (dget_in _ string_dec_ok). simpl. reflexivity.
Qed.
End Stable.
