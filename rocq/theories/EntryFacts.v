(** [int] of a text, and histories of several clients. *)
From Coq Require Import String Ascii Lia.
From Verif Require Import Base BaseFacts ModelEntry SpecEntry.
Open Scope string_scope. Open Scope list_scope. Open Scope nat_scope.

Arguments digit : simpl never.
Arguments is_digit : simpl never.
Arguments digit_of : simpl never.
Arguments is_space : simpl never.
Arguments Ascii.eqb : simpl never.

Lemma la_app a b : list_ascii_of_string (a ++ b)%string = list_ascii_of_string a ++ list_ascii_of_string b.
Proof. induction a as [|c a IH]; [reflexivity|]. simpl. rewrite IH. reflexivity. Qed.
Lemma la_inj a b : list_ascii_of_string a = list_ascii_of_string b -> a = b.
Proof. intro H. rewrite <- (string_of_list_ascii_of_string a), H. apply string_of_list_ascii_of_string. Qed.

Lemma digit_nat d : d < 10 -> nat_of_ascii (digit d) = 48 + d.
Proof. intro H. unfold digit. apply nat_ascii_embedding. lia. Qed.
Lemma digit_is d : d < 10 -> is_digit (digit d) = true.
Proof. intro H. unfold is_digit. rewrite digit_nat by exact H. apply andb_true_intro. split; apply Nat.leb_le; lia. Qed.
Lemma digit_val d : d < 10 -> digit_of (digit d) = Z.of_nat d.
Proof. intro H. unfold digit_of. rewrite digit_nat by exact H. lia. Qed.
Lemma is_digit_inv c : is_digit c = true -> exists d, d < 10 /\ c = digit d.
Proof.
  intro H. unfold is_digit in H. apply andb_prop in H. destruct H as [H1 H2]. apply Nat.leb_le in H1, H2.
  exists (nat_of_ascii c - 48). split; [lia|]. unfold digit. replace (48 + (nat_of_ascii c - 48)) with (nat_of_ascii c) by lia. symmetry. apply ascii_nat_embedding.
Qed.
Lemma under_digit c : is_digit c = true -> (c =? "_")%char = false /\ (c =? "-")%char = false /\ (c =? "+")%char = false /\ is_space c = false.
Proof.
  intro H. destruct (is_digit_inv c H) as [d [L ->]]. do 10 (destruct d as [|d]; [repeat split; reflexivity|]). lia.
Qed.
Lemma space_spec c : is_space c = true <-> In c (map ascii_of_nat [9; 10; 11; 12; 13; 32]).
Proof.
  split.
  - intro H. rewrite <- (ascii_nat_embedding c). unfold is_space in H. apply in_map. apply Bool.orb_prop in H. destruct H as [H|H].
    + apply Nat.eqb_eq in H. rewrite H. simpl. tauto.
    + apply andb_prop in H. destruct H as [H1 H2]. apply Nat.leb_le in H1, H2. simpl. lia.
  - intro H. simpl in H. repeat (destruct H as [<-|H]; [reflexivity|]). contradiction.
Qed.
Lemma space_not c : is_space c = true -> is_digit c = false /\ (c =? "_")%char = false.
Proof.
  intro H. apply space_spec in H. simpl in H. repeat (destruct H as [<-|H]; [split; reflexivity|]). contradiction.
Qed.
Lemma blank_spec s : blank s <-> Forall (fun c => is_space c = true) (list_ascii_of_string s).
Proof. unfold blank. split; apply Forall_impl; intros c; apply space_spec. Qed.

Lemma skip_spec s : exists b, s = b ++ skip_space s /\ Forall (fun c => is_space c = true) b.
Proof.
  induction s as [|c r [b [E F]]]; [exists []; split; [reflexivity|constructor]|]. simpl. destruct (is_space c) eqn:H.
  - exists (c :: b). simpl. rewrite <- E. split; [reflexivity|constructor; assumption].
  - exists []. split; [reflexivity|constructor].
Qed.
Definition starts (P : ascii -> bool) (s : list ascii) : Prop := match s with [] => True | c :: _ => P c = false end.
Lemma skip_app b r : Forall (fun c => is_space c = true) b -> starts is_space r -> skip_space (b ++ r) = r.
Proof.
  intros F H. induction F as [|c b Hc F IH]; simpl; [|rewrite Hc; exact IH]. destruct r as [|c r]; [reflexivity|]. simpl in *. rewrite H. reflexivity.
Qed.
Lemma skip_blank b : Forall (fun c => is_space c = true) b -> skip_space b = [].
Proof. intro F. rewrite <- (app_nil_r b). apply skip_app; [exact F|exact I]. Qed.

(** The digits of the first group and the further groups. *)
Definition shown (l : list nat) (ls : list (list nat)) : list ascii := map digit l ++ concat (map (fun g => "_"%char :: map digit g) ls).
Definition small (l : list nat) : Prop := Forall (fun d => d < 10) l.
Definition good (g : list nat) : Prop := g <> [] /\ small g.

Lemma groups_shown l ls : list_ascii_of_string (groups (l :: ls)) = shown l ls.
Proof.
  revert l. induction ls as [|g ls IH]; intro l.
  - unfold shown, groups, group. rewrite list_ascii_of_string_of_list_ascii, app_nil_r. reflexivity.
  - change (groups (l :: g :: ls)) with (group l ++ "_" ++ groups (g :: ls))%string. rewrite !la_app, IH. unfold group, shown.
    rewrite list_ascii_of_string_of_list_ascii. simpl. reflexivity.
Qed.

Definition ends_here (c : ascii) : bool := is_digit c || (c =? "_")%char.
Lemma scan_sound s : forall prev acc ds rest, scan prev s acc = Some (ds, rest) ->
  exists l ls, s = shown l ls ++ rest /\ small l /\ Forall good ls /\ ds = acc ++ map Z.of_nat (l ++ concat ls) /\ (prev = true -> l <> []).
Proof.
  induction s as [|c r IH]; intros prev acc ds rest H; simpl in H.
  - destruct prev; [discriminate|]. injection H as <- <-. exists [], []. unfold shown. simpl. rewrite app_nil_r.
    split; [reflexivity|]. split; [constructor|]. split; [constructor|]. split; [reflexivity|discriminate].
  - destruct (c =? "_")%char eqn:Eu.
    + destruct prev; [discriminate|]. apply Ascii.eqb_eq in Eu. subst c. destruct (IH true acc ds rest H) as [l [ls [E [Sl [Fl [Ed Ne]]]]]].
      exists [], (l :: ls). split; [unfold shown in *; simpl; rewrite E; reflexivity|]. split; [constructor|].
      split; [constructor; [split; [apply Ne; reflexivity|exact Sl]|exact Fl]|]. split; [exact Ed|discriminate].
    + destruct (is_digit c) eqn:Ec.
      * destruct (is_digit_inv c Ec) as [d [Ld ->]]. destruct (IH false _ ds rest H) as [l [ls [E [Sl [Fl [Ed _]]]]]].
        exists (d :: l), ls. split; [unfold shown in *; simpl; rewrite E; reflexivity|]. split; [constructor; assumption|]. split; [exact Fl|].
        split; [|discriminate]. rewrite Ed, digit_val, <- app_assoc by exact Ld. reflexivity.
      * destruct prev; [discriminate|]. injection H as <- <-. exists [], []. unfold shown. simpl. rewrite app_nil_r.
        split; [reflexivity|]. split; [constructor|]. split; [constructor|]. split; [reflexivity|discriminate].
Qed.
Lemma scan_digit prev d r acc : d < 10 -> scan prev (digit d :: r) acc = scan false r (acc ++ [Z.of_nat d]).
Proof.
  intro L. destruct (under_digit (digit d) (digit_is d L)) as [U _].
  transitivity (if (digit d =? "_")%char then if prev then None else scan true r acc
      else if is_digit (digit d) then scan false r (acc ++ [digit_of (digit d)])
      else if prev then None else Some (acc, digit d :: r)); [reflexivity|]. rewrite U, digit_is, digit_val by exact L. reflexivity.
Qed.
Lemma scan_digits l : small l -> forall prev rest acc, (prev = true -> l <> []) ->
  scan prev (map digit l ++ rest) acc = scan (match l with [] => prev | _ => false end) rest (acc ++ map Z.of_nat l).
Proof.
  intro Sl. induction Sl as [|d l Ld Sl IH]; intros prev rest acc Hp; [simpl; rewrite app_nil_r; reflexivity|].
  change (map digit (d :: l) ++ rest) with (digit d :: (map digit l ++ rest)). rewrite scan_digit, IH by (exact Ld || discriminate).
  rewrite <- app_assoc. destruct l; reflexivity.
Qed.
Lemma scan_complete ls : Forall good ls -> forall l rest acc, small l -> starts ends_here rest ->
  scan false (shown l ls ++ rest) acc = Some (acc ++ map Z.of_nat (l ++ concat ls), rest).
Proof.
  intro F. induction F as [|g ls [Ng Sg] F IH]; intros l rest acc Sl Hr; unfold shown in *; simpl; rewrite <- ?app_assoc; rewrite scan_digits by (assumption || discriminate).
  - rewrite !app_nil_r. replace (match l with [] => false | _ => false end) with false by (destruct l; reflexivity). simpl.
    destruct rest as [|c r]; [reflexivity|]. simpl in Hr. apply Bool.orb_false_elim in Hr. destruct Hr as [H1 H2]. simpl. rewrite H1, H2. reflexivity.
  - replace (match l with [] => false | _ => false end) with false by (destruct l; reflexivity). simpl.
    rewrite <- app_assoc, scan_digits by auto. destruct g as [|d g]; [contradiction|].
    pose proof (IH [] rest ((acc ++ map Z.of_nat l) ++ map Z.of_nat (d :: g)) (Forall_nil _) Hr) as Q. simpl in Q. etransitivity; [exact Q|].
    f_equal. f_equal. rewrite !map_app, !app_assoc. reflexivity.
Qed.

Lemma value_number l : forall a, fold_left (fun a d => (10 * a + d)%Z) (map Z.of_nat l) a = (a * 10 ^ Z.of_nat (List.length l) + number l)%Z.
Proof.
  induction l as [|d l IH]; intro a; [change (a = a * 1 + 0)%Z; lia|]. cbn [map fold_left]. rewrite IH. cbn [number List.length].
  rewrite Nat2Z.inj_succ, Z.pow_succ_r by apply Nat2Z.is_nonneg. ring.
Qed.

Opaque max_digits.
Lemma int_spec s z : py_int s = Ok z <-> numeral max_digits s z.
Proof.
  split.
  - unfold py_int. intro H. destruct (skip_spec (list_ascii_of_string s)) as [b [Eb Fb]]. set (t := skip_space (list_ascii_of_string s)) in *. clearbody t.
    assert (Main : forall (neg : bool) (sg : string) r, t = list_ascii_of_string sg ++ r -> sign sg (if neg then -1 else 1)%Z ->
      match r with
      | c :: _ => if is_digit c then match scan false r [] with
          | Some (ds, rest) => match skip_space rest with
             | [] => if max_digits <? List.length ds then Err ValueError else Ok (if neg then - value_of ds else value_of ds)%Z
             | _ => Err ValueError end
          | None => Err ValueError end else Err ValueError
      | [] => Err ValueError
      end = Ok z -> numeral max_digits s z).
    { clear H. intros neg sg r Et Hs H. destruct r as [|c r']; [discriminate|]. destruct (is_digit c) eqn:Ec; [|discriminate].
      destruct (scan false (c :: r') []) as [[ds rest]|] eqn:Es; [|discriminate]. destruct (skip_space rest) eqn:Er; [|discriminate].
      destruct (Nat.ltb_spec max_digits (List.length ds)) as [L|L]; [discriminate|]. injection H as <-.
      destruct (scan_sound _ _ _ _ _ Es) as [l [ls [E [Sl [Fl [Ed _]]]]]]. simpl in Ed.
      destruct (skip_spec rest) as [a [Ea Fa]]. rewrite Er, app_nil_r in Ea. subst a.
      assert (Nl : l <> []).
      { intros ->. destruct ls as [|g ls].
        - simpl in E. unfold shown in E. simpl in E. subst rest. inversion Fa as [|? ? Hc _]. destruct (under_digit c Ec) as [_ [_ [_ Q]]]. congruence.
        - unfold shown in E. simpl in E. injection E as -> _. discriminate. }
      exists (string_of_list_ascii b), sg, (l :: ls), (string_of_list_ascii rest), (if neg then -1 else 1)%Z.
      split; [|split; [|split; [|split; [exact Hs|split; [discriminate|split; [|split]]]]]].
      - apply la_inj. rewrite !la_app, groups_shown, !list_ascii_of_string_of_list_ascii, Eb, Et, E. rewrite !app_assoc. reflexivity.
      - apply blank_spec. rewrite list_ascii_of_string_of_list_ascii. exact Fb.
      - apply blank_spec. rewrite list_ascii_of_string_of_list_ascii. exact Fa.
      - constructor; [split; assumption|exact Fl].
      - rewrite Ed, map_length in L. exact L.
      - rewrite Ed. unfold value_of. rewrite value_number. simpl concat. destruct neg; lia. }
    destruct t as [|c t']; [discriminate|]. destruct (c =? "-")%char eqn:E1; [|destruct (c =? "+")%char eqn:E2].
    + apply (Main true "-"%string t'); [apply Ascii.eqb_eq in E1; subst c; reflexivity|right; split; reflexivity|exact H].
    + apply (Main false "+"%string t'); [apply Ascii.eqb_eq in E2; subst c; reflexivity|left; split; [right; reflexivity|reflexivity]|exact H].
    + apply (Main false ""%string (c :: t')); [reflexivity|left; split; [left; reflexivity|reflexivity]|exact H].
  - intros [before [sg [ls [after [u [-> [Hb [Ha [Hs [Ne [Fl [Len ->]]]]]]]]]]]]. destruct ls as [|l ls]; [contradiction|].
    inversion Fl as [|? ? [Nl Sl] Fl']; subst. apply blank_spec in Hb, Ha. destruct l as [|d l]; [contradiction|].
    inversion Sl as [|? ? Ld Sl']; subst. pose proof (digit_is d Ld) as Id. destruct (under_digit _ Id) as [U1 [U2 [U3 U4]]].
    unfold py_int. rewrite !la_app, groups_shown.
    assert (St : starts ends_here (list_ascii_of_string after)).
    { destruct Ha as [|c r Hc _]; [exact I|]. simpl. unfold ends_here. destruct (space_not c Hc) as [-> ->]. reflexivity. }
    assert (Sc : scan false (shown (d :: l) ls ++ list_ascii_of_string after) [] = Some (map Z.of_nat (concat ((d :: l) :: ls)), list_ascii_of_string after)).
    { rewrite scan_complete; [reflexivity|exact Fl'|exact Sl|exact St]. }
    assert (V : value_of (map Z.of_nat (concat ((d :: l) :: ls))) = number (concat ((d :: l) :: ls))) by (unfold value_of; rewrite value_number; lia).
    assert (Lb : (max_digits <? List.length (map Z.of_nat (concat ((d :: l) :: ls)))) = false) by (apply Nat.ltb_ge; rewrite map_length; exact Len).
    assert (Sh : shown (d :: l) ls ++ list_ascii_of_string after = digit d :: (shown l ls ++ list_ascii_of_string after)) by reflexivity.
    rewrite Sh in *. set (W := shown l ls ++ list_ascii_of_string after) in *. clearbody W. clear Sh.
    destruct Hs as [[[->| ->] ->]|[-> ->]].
    + change (list_ascii_of_string "" ++ digit d :: W) with (digit d :: W). rewrite skip_app by (exact Hb || exact U4).
      rewrite U2, U3, Id, Sc, skip_blank, Lb, V by exact Ha. f_equal; lia.
    + change (list_ascii_of_string "+" ++ digit d :: W) with ("+"%char :: digit d :: W). rewrite skip_app by (exact Hb || reflexivity).
      change ("+" =? "-")%char with false. change ("+" =? "+")%char with true. cbv iota beta. rewrite Id, Sc, skip_blank, Lb, V by exact Ha. f_equal; lia.
    + change (list_ascii_of_string "-" ++ digit d :: W) with ("-"%char :: digit d :: W). rewrite skip_app by (exact Hb || reflexivity).
      change ("-" =? "-")%char with true. cbv iota beta. rewrite Id, Sc, skip_blank, Lb, V by exact Ha. f_equal; lia.
Qed.

Lemma lower_one a b : b < 26 -> (lower_char a = ascii_of_nat (97 + b) <-> In a [ascii_of_nat (97 + b); ascii_of_nat (65 + b)]).
Proof.
  intro Hb. unfold lower_char. cbv zeta.
  destruct ((65 <=? nat_of_ascii a) && (nat_of_ascii a <=? 90)) eqn:T.
  - apply andb_prop in T. destruct T as [T1 T2]. apply Nat.leb_le in T1, T2. split.
    + intro E. apply (f_equal nat_of_ascii) in E. rewrite !nat_ascii_embedding in E by lia. right. left.
      rewrite <- (ascii_nat_embedding a). f_equal. lia.
    + intros [E|[E|[]]]; subst a; rewrite nat_ascii_embedding in * by lia; [lia|f_equal; lia].
  - split; [intro E; left; symmetry; exact E|]. intros [E|[E|[]]]; [symmetry; exact E|]. exfalso. subst a.
    rewrite nat_ascii_embedding in T by lia. rewrite (proj2 (Nat.leb_le 65 (65 + b))), (proj2 (Nat.leb_le (65 + b) 90)) in T by lia. discriminate.
Qed.
Lemma lower_spec s : lower s = "true"%string <-> yes s.
Proof.
  split.
  - intro H. destruct s as [|a [|b [|c [|d [|e s]]]]]; try discriminate H. simpl in H. injection H as Ha Hb Hc Hd.
    exists a, b, c, d. split; [reflexivity|]. split; [apply (proj1 (lower_one a 19 ltac:(lia)) Ha)|].
    split; [apply (proj1 (lower_one b 17 ltac:(lia)) Hb)|]. split; [apply (proj1 (lower_one c 20 ltac:(lia)) Hc)|apply (proj1 (lower_one d 4 ltac:(lia)) Hd)].
  - intros [a [b [c [d [-> [Ha [Hb [Hc Hd]]]]]]]]. simpl. apply (lower_one a 19) in Ha; [|lia]. apply (lower_one b 17) in Hb; [|lia].
    apply (lower_one c 20) in Hc; [|lia]. apply (lower_one d 4) in Hd; [|lia]. rewrite Ha, Hb, Hc, Hd. reflexivity.
Qed.

Section Clients.
Context {page event : Type}.
Variable new_page : page.
Variable step : event -> page -> page.

Lemma page_self (s : list (nat * page)) c p : page_of ((c, p) :: s) c = Some p.
Proof. unfold page_of. simpl. rewrite Nat.eqb_refl. reflexivity. Qed.
Lemma page_other (s : list (nat * page)) c c' p : c <> c' -> page_of ((c, p) :: s) c' = page_of s c'.
Proof. intro H. unfold page_of. simpl. rewrite (proj2 (Nat.eqb_neq c c') H). reflexivity. Qed.

Lemma serve_never c hs : (forall h, In h hs -> h <> Opens c) -> forall s, page_of s c = None -> page_of (fold_left (serve new_page step) hs s) c = None.
Proof.
  induction hs as [|h hs IH]; intros H s E; [exact E|]. simpl. apply IH; [intros h' I; apply H; right; exact I|].
  destruct h as [c'|c' e]; simpl.
  - rewrite page_other; [exact E|]. intros ->. exact (H _ (or_introl eq_refl) eq_refl).
  - destruct (page_of s c') as [p|] eqn:E'; [|exact E]. destruct (Nat.eq_dec c' c) as [->|N]; [congruence|]. rewrite page_other by exact N. exact E.
Qed.
Lemma serve_client c hs : (forall h, In h hs -> h <> Opens c) -> forall s p, page_of s c = Some p ->
  page_of (fold_left (serve new_page step) hs s) c = Some (fold_left (fun p e => step e p) (client_events c hs) p).
Proof.
  induction hs as [|h hs IH]; intros H s p E; [exact E|]. simpl fold_left. assert (H' : forall h', In h' hs -> h' <> Opens c) by (intros h' I; apply H; right; exact I).
  destruct h as [c'|c' e].
  - simpl. apply IH; [exact H'|]. rewrite page_other; [exact E|]. intros ->. exact (H _ (or_introl eq_refl) eq_refl).
  - simpl. destruct (Nat.eqb_spec c' c) as [->|N].
    + rewrite E. simpl. apply IH; [exact H'|apply page_self].
    + simpl. apply IH; [exact H'|]. destruct (page_of s c'); [rewrite page_other by exact N|]; exact E.
Qed.
End Clients.

Lemma int_errors s e : py_int s = Err e -> e = ValueError.
Proof.
  unfold py_int. intro H.
  repeat match type of H with
  | context [match ?x with _ => _ end] => destruct x
  | Ok _ = Err _ => discriminate
  | Err _ = Err _ => injection H as <-; reflexivity
  end.
Qed.
