(** Proofs about [set_params] and [clone]. *)
From Coq Require Import String Ascii.
From Verif Require Import Base BaseFacts Dict DictFacts ModelObjects SpecObjects ObjectFacts.
Open Scope list_scope.

Section WithClasses.
Variable classes : nat -> class.
Notation get_params := (get_params classes).
Notation set_params := (set_params classes).
Notation visible := (visible classes).
Notation resolves := (resolves classes).
Notation has_protocol := (has_protocol classes).
Notation heap_ok := (heap_ok classes).
Notation has_name := (has_name classes).
Notation known := (known classes).

Lemma has_name_known h l k : has_name h l k = true <-> known h l k.
Proof.
  unfold ModelObjects.has_name, SpecObjects.known. destruct (nth_error h l) as [o|].
  - rewrite orb_true_iff, (existsb_in _ string_dec_ok). unfold dmem, attr_of. split.
    + intros H. exists o. split; [reflexivity|]. destruct H as [H|H]; [left|auto].
      destruct (dget String.eqb (o_attrs o) k); [eauto|discriminate].
    + intros [o' [E H]]. injection E as <-. destruct H as [[v ->]|H]; auto.
  - split; [discriminate|intros [o [E _]]; discriminate].
Qed.

Lemma set_attr_ok h l k v o : nth_error h l = Some o ->
  exists h', set_attr h l k v = Ok h' /\ length h' = length h /\
    forall m, nth_error h' m = if m =? l then Some (mkobj (o_class o) (dset String.eqb (o_attrs o) k v)) else nth_error h m.
Proof.
  intro N. unfold set_attr. rewrite (proj2 (rd_ok h l o) N). cbn [bind].
  pose proof (nth_error_lt _ _ _ N) as L.
  destruct (wr_ok h l (mkobj (o_class o) (dset String.eqb (o_attrs o) k v)) L) as [h' [E [Ln H]]].
  exists h'. split; [exact E|]. split; [exact Ln|]. intro m. rewrite H.
  destruct (Nat.eqb_spec m l); reflexivity.
Qed.

Lemma set_attr_same h l k v : attr h l k = Some v -> set_attr h l k v = Ok h.
Proof.
  unfold attr. destruct (nth_error h l) as [o|] eqn:N; [|discriminate]. intro A.
  destruct (set_attr_ok h l k v o N) as [h' [E [Ln H]]]. rewrite E. f_equal. apply list_nth_ext; [exact Ln|].
  intros m _. rewrite H. destruct (Nat.eqb_spec m l) as [->|]; [|reflexivity]. rewrite N. f_equal.
  unfold attr_of in A. rewrite dset_same by exact A. destruct o. reflexivity.
Qed.

(** ** Settings that change nothing *)
Lemma resolves_cases h l key v : resolves h l key v ->
  (visible h l key /\ attr h l key = Some v) \/
  (exists k l' j, key = (k ++ sep ++ j)%string /\ visible h l k /\ attr h l k = Some (VRef l') /\
     has_protocol h l' /\ resolves h l' j v).
Proof. intros []; [left; auto|right; exists k, l', j; auto]. Qed.

Lemma visible_name h rank l k : heap_ok h rank -> visible h l k -> param_name k /\ exists v, attr h l k = Some v.
Proof.
  intros W [o [N V]]. unfold attr. rewrite N. destruct (c_protocol (classes (o_class o))) eqn:E; [exact V| |contradiction].
  apply (proj2 (ho_sk _ _ _ W l o names N E) k V).
Qed.
Lemma visible_known h rank l k : heap_ok h rank -> visible h l k -> has_name h l k = true.
Proof.
  intros W V. destruct (visible_name h rank l k W V) as [_ [v A]]. destruct V as [o [N _]].
  apply has_name_known. exists o. split; [exact N|]. unfold attr in A. rewrite N in A. eauto.
Qed.

Lemma resolves_shape h rank l key v : heap_ok h rank -> resolves h l key v ->
  key <> EmptyString /\ ends_us key = false.
Proof.
  intros W R. induction R as [l k v V A|l k l' j v V A P R IH].
  - destruct (visible_name h rank l k W V) as [Pk _]. split; [apply Pk|apply param_name_ends, Pk].
  - destruct IH as [Hj Ej]. split; [destruct k; discriminate|].
    rewrite !ends_us_app; [exact Ej|exact Hj|intro X; discriminate].
Qed.

Lemma for_each_const {A S} (body : A -> S -> res S) l st :
  (forall x, In x l -> body x st = Ok st) -> for_each l body st = Ok st.
Proof.
  induction l as [|x l IH]; intros H; [reflexivity|]. simpl. rewrite H by (left; reflexivity). simpl.
  apply IH. intros y Hy. apply H. right. exact Hy.
Qed.

Lemma is_public_resolves h rank l key v : heap_ok h rank -> resolves h l key v -> is_public key = true.
Proof.
  intros W R. destruct (resolves_cases _ _ _ _ R) as [[V A]|[k [l' [j [-> [V [A [P Rj]]]]]]]].
  - apply param_name_public. eapply visible_name; eauto.
  - destruct (resolves_shape _ _ _ _ _ W Rj). apply nested_public; auto. eapply visible_name; eauto.
Qed.

Lemma set_params_same h rank : heap_ok h rank -> forall lim l ps,
  rank l + 1 < lim -> has_protocol h l ->
  (forall key v, In (key, v) ps -> resolves h l key v) -> set_params lim h l ps = Ok h.
Proof.
  intros W. induction lim as [|lim IH]; intros l ps Hl Hp Hps; [lia|]. cbn [ModelObjects.set_params].
  pose proof Hp as Hp'. destruct Hp' as [o [No Pr]]. rewrite (proj2 (rd_ok h l o) No). cbn [bind].
  destruct (c_protocol (classes (o_class o))) as [|names|] eqn:Epr; [| |congruence].
  - assert (H : forall ps nested, (forall key v, In (key, v) ps -> resolves h l key v) ->
      exists nested', for_each ps (outer_step classes l) (h, nested) = Ok (h, nested ++ nested') /\
        forall k j v, In (k, j, v) nested' -> exists l', visible h l k /\ attr h l k = Some (VRef l') /\
          has_protocol h l' /\ resolves h l' j v).
    { clear ps Hps. induction ps as [|[key v] ps IHp]; intros nested Hps.
      - exists []. rewrite app_nil_r. split; [reflexivity|intros k j v []].
      - assert (R : resolves h l key v) by (apply Hps; left; reflexivity).
        assert (Hps' : forall key v, In (key, v) ps -> resolves h l key v) by (intros; apply Hps; right; assumption).
        cbn [for_each]. unfold outer_step at 1. rewrite (is_public_resolves _ _ _ _ _ W R).
        destruct (resolves_cases _ _ _ _ R) as [[V A]|[k [l' [j [-> [V [A [P Rj]]]]]]]].
        + destruct (visible_name _ _ _ _ W V) as [Pk _]. unfold split_param. rewrite partition_name by exact Pk. cbn [bind].
          rewrite (visible_known _ _ _ _ W V), set_attr_same by exact A. cbn [bind]. apply IHp, Hps'.
        + destruct (visible_name _ _ _ _ W V) as [Pk _]. unfold split_param. rewrite partition_nested by exact Pk.
          destruct (resolves_shape _ _ _ _ _ W Rj) as [Hj _]. destruct j as [|c j]; [congruence|]. cbn [bind].
          destruct (IHp (nested ++ [(k, String c j, v)]) Hps') as [nested' [E Hn]].
          exists ((k, String c j, v) :: nested'). split; [rewrite E, <- app_assoc; reflexivity|].
          intros k' j' v' [I|I]; [injection I as <- <- <-; exists l'; auto|apply Hn, I]. }
    destruct (H ps [] Hps) as [nested [E Hn]]. rewrite E. cbn [bind app]. apply for_each_const.
    intros [[k j] v] I. destruct (Hn k j v I) as [l' [V [A [P R]]]].
    rewrite (visible_known _ _ _ _ W V), (proj2 (rd_ok h l o) No). cbn [bind].
    unfold attr in A. rewrite No in A. rewrite A. cbn [as_ref bind].
    destruct (ho_refs _ _ _ W l k l' V) as [_ Hr]; [unfold attr; rewrite No; exact A|].
    apply IH; [lia|exact P|]. intros key w [X|[]]. injection X as <- <-. exact R.
  - destruct ps as [|p0 ps0]; [reflexivity|]. set (ps := p0 :: ps0) in *. clearbody ps.
    destruct (get_params_ok classes h rank W lim l) as [valid [Eg [Nd Rep]]]; [lia|exact Hp|].
    rewrite Eg. cbn [bind].
    assert (H : forall ps nested, (forall key v, In (key, v) ps -> resolves h l key v) ->
      (forall k d, In (k, d) nested -> visible h l k /\ exists l', attr h l k = Some (VRef l') /\ has_protocol h l' /\
          forall j v, In (j, v) d -> resolves h l' j v) ->
      exists nested', for_each ps (sk_step l) (h, valid, nested) = Ok (h, valid, nested') /\
        forall k d, In (k, d) nested' -> visible h l k /\ exists l', attr h l k = Some (VRef l') /\ has_protocol h l' /\
          forall j v, In (j, v) d -> resolves h l' j v).
    { clear ps Hps. induction ps as [|[key v] ps IHp]; intros nested Hps Hn.
      - exists nested. auto.
      - assert (R : resolves h l key v) by (apply Hps; left; reflexivity).
        assert (Hps' : forall key v, In (key, v) ps -> resolves h l key v) by (intros; apply Hps; right; assumption).
        cbn [for_each]. unfold sk_step at 1.
        destruct (resolves_cases _ _ _ _ R) as [[V A]|[k [l' [j [-> [V [A [P Rj]]]]]]]].
        + destruct (visible_name _ _ _ _ W V) as [Pk _]. rewrite partition_name by exact Pk.
          assert (Ev : dget String.eqb valid key = Some v) by (apply Rep, R).
          unfold dmem. rewrite Ev, set_attr_same by exact A. cbn [bind]. rewrite dset_same by exact Ev.
          apply IHp; auto.
        + destruct (visible_name _ _ _ _ W V) as [Pk _]. rewrite partition_nested by exact Pk.
          assert (Ev : dget String.eqb valid k = Some (VRef l')) by (apply Rep, res_here; assumption).
          unfold dmem. rewrite Ev. cbn [bind]. apply IHp; [exact Hps'|].
          intros k' d' I.
          assert (I' : (k' = k /\ d' = dset String.eqb (match dget String.eqb nested k with Some d => d | None => [] end) j v)
                       \/ In (k', d') nested).
          { clear -I. revert I. generalize (dset String.eqb (match dget String.eqb nested k with Some d => d | None => [] end) j v).
            intros x I. induction nested as [|[k0 d0] nested IHn]; simpl in I.
            - destruct I as [I|[]]. injection I as <- <-. auto.
            - destruct (String.eqb_spec k k0) as [<-|].
              + destruct I as [I|I]; [injection I as <- <-; auto|right; right; exact I].
              + destruct I as [I|I]; [right; left; exact I|]. destruct (IHn I); [auto|right; right; assumption]. }
          destruct I' as [[-> ->]|I']; [|apply Hn, I'].
          split; [exact V|]. exists l'. split; [exact A|]. split; [exact P|].
          intros j' v' Ij.
          assert (Ij' : (j' = j /\ v' = v) \/ In (j', v') (match dget String.eqb nested k with Some d => d | None => [] end)).
          { clear -Ij. revert Ij. generalize (match dget String.eqb nested k with Some d => d | None => [] end).
            intros x I. induction x as [|[k0 d0] x IHn]; simpl in I.
            - destruct I as [I|[]]. injection I as <- <-. auto.
            - destruct (String.eqb_spec j k0) as [<-|].
              + destruct I as [I|I]; [injection I as <- <-; auto|right; right; exact I].
              + destruct I as [I|I]; [right; left; exact I|]. destruct (IHn I); [auto|right; right; assumption]. }
          destruct Ij' as [[-> ->]|Ij']; [exact Rj|].
          destruct (dget String.eqb nested k) as [d|] eqn:Ed; [|destruct Ij'].
          destruct (Hn k d) as [_ [l2 [A2 [_ R2]]]]; [eapply dget_entry; [apply string_dec_ok|exact Ed]|].
          rewrite A in A2. injection A2 as <-. apply R2, Ij'. }
    destruct (H ps [] Hps) as [nested [E Hn]]; [intros k d []|]. rewrite E. cbn [bind]. apply for_each_const.
    intros [k d] I. destruct (Hn k d I) as [V [l' [A [P R]]]]. cbn [fst snd].
    assert (Ev : dget String.eqb valid k = Some (VRef l')) by (apply Rep, res_here; assumption).
    unfold dget_res. rewrite Ev. cbn [bind as_ref].
    destruct (ho_refs _ _ _ W l k l' V A) as [_ Hr].
    apply IH; [lia|exact P|exact R].
Qed.

(** ** Heaps extended by one object *)
Lemma nth_ext h (o : obj) l : l < length h -> nth_error (h ++ [o]) l = nth_error h l.
Proof. intro H. apply nth_error_app1, H. Qed.

(** Ranks once an object with the rank of the one at [l] is appended. *)
Definition rank' (h : heap) (rank : nat -> nat) (l m : nat) : nat := if m =? length h then rank l else rank m.
Lemma rank'_old h rank l m : m < length h -> rank' h rank l m = rank m.
Proof. intro H. unfold rank'. destruct (Nat.eqb_spec m (length h)); [lia|reflexivity]. Qed.
Lemma rank'_new h rank l : rank' h rank l (length h) = rank l.
Proof. unfold rank'. rewrite Nat.eqb_refl. reflexivity. Qed.

Section Extend.
Variables (h : heap) (rank : nat -> nat) (o' : obj).
Hypothesis W : heap_ok h rank.

Lemma visible_ext l k : l < length h -> (visible (h ++ [o']) l k <-> visible h l k).
Proof. intro H. unfold SpecObjects.visible. rewrite nth_ext by exact H. reflexivity. Qed.
Lemma attr_ext l k : l < length h -> attr (h ++ [o']) l k = attr h l k.
Proof. intro H. unfold attr. rewrite nth_ext by exact H. reflexivity. Qed.
Lemma protocol_ext l : l < length h -> (has_protocol (h ++ [o']) l <-> has_protocol h l).
Proof. intro H. unfold SpecObjects.has_protocol. rewrite nth_ext by exact H. reflexivity. Qed.
Lemma attr_in l k v : attr h l k = Some v -> exists o, nth_error h l = Some o /\ In (k, v) (o_attrs o) /\ l < length h.
Proof.
  unfold attr. destruct (nth_error h l) as [o|] eqn:N; [|discriminate]. intro A. exists o. split; [reflexivity|].
  split; [eapply dget_entry; [apply string_dec_ok|exact A]|eapply nth_error_lt, N].
Qed.
Lemma resolves_ext l key v : resolves h l key v -> resolves (h ++ [o']) l key v.
Proof.
  intro R. induction R as [l k v V A|l k l' j v V A P R IH].
  - destruct (attr_in _ _ _ A) as [o [_ [_ L]]]. apply res_here; [apply visible_ext; assumption|rewrite attr_ext; assumption].
  - destruct (attr_in _ _ _ A) as [o [N [I L]]]. destruct (ho_refs _ _ _ W _ _ _ V A) as [L' _].
    eapply res_nested; [apply visible_ext; eassumption|rewrite attr_ext; eassumption|apply protocol_ext; assumption|exact IH].
Qed.
Lemma resolves_ext_inv l key v : l < length h -> resolves (h ++ [o']) l key v -> resolves h l key v.
Proof.
  intros L R. induction R as [l k v V A|l k l' j v V A P R IH].
  - apply res_here; [apply visible_ext in V; assumption|rewrite attr_ext in A; assumption].
  - rewrite attr_ext in A by exact L. apply visible_ext in V; [|exact L].
    destruct (ho_refs _ _ _ W _ _ _ V A) as [L' _].
    eapply res_nested; [exact V|exact A|apply protocol_ext in P; assumption|apply IH, L'].
Qed.

(** The new object has the class of an old one, and values the old one has or no references. *)
Variables (l : nat) (o : obj).
Hypothesis No : nth_error h l = Some o.
Hypothesis Hcls : o_class o' = o_class o.
Hypothesis Hnm : NoDup (map fst (o_attrs o')) /\ forall k v, In (k, v) (o_attrs o') -> is_public k = true -> param_name k.
Hypothesis Hrefs : forall k r, visible (h ++ [o']) (length h) k -> attr_of o' k = Some (VRef r) -> r < length h /\ rank r < rank l.
Hypothesis Hsk : forall names, c_protocol (classes (o_class o)) = Sklearn names ->
  forall k, In k names -> exists v, attr_of o' k = Some v.

Lemma nth_cases m x : nth_error (h ++ [o']) m = Some x -> (m < length h /\ nth_error h m = Some x) \/ (m = length h /\ x = o').
Proof.
  intro N. pose proof (nth_error_lt _ _ _ N) as L. rewrite app_length in L. simpl in L.
  destruct (Nat.lt_ge_cases m (length h)) as [H|H].
  - left. rewrite nth_ext in N by exact H. auto.
  - right. assert (m = length h) by lia. subst m. rewrite nth_error_app2, Nat.sub_diag in N by lia. injection N as <-. auto.
Qed.

Lemma heap_ok_ext : heap_ok (h ++ [o']) (rank' h rank l).
Proof.
  constructor.
  - intros m x N. destruct (nth_cases m x N) as [[L N']|[-> ->]]; [apply (ho_names _ _ _ W _ _ N')|exact Hnm].
  - intros m k r V A. rewrite app_length. simpl. pose proof A as A'. unfold attr in A'.
    destruct (nth_error (h ++ [o']) m) as [x|] eqn:N; [|discriminate]. destruct (nth_cases m x N) as [[L N']|[-> ->]].
    + apply visible_ext in V; [|exact L]. rewrite attr_ext in A by exact L.
      destruct (ho_refs _ _ _ W _ _ _ V A). rewrite !rank'_old by assumption. lia.
    + destruct (Hrefs k r V A'). rewrite rank'_new, rank'_old by assumption. lia.
  - intros m x names N E. destruct (nth_cases m x N) as [[L N']|[-> ->]]; [apply (ho_sk _ _ _ W _ _ _ N' E)|].
    rewrite Hcls in E. destruct (ho_sk _ _ _ W _ _ _ No E) as [Nd H]. split; [exact Nd|].
    intros k I. split; [apply H, I|eapply Hsk; eauto].
Qed.
End Extend.
End WithClasses.
