(** Properties of the download of the graph and of the statistics in the former web application
    (app/streamlit_app.py), C74. *)
From Coq Require Import String Ascii List ZArith Lia Relations.Relation_Operators.
From Verif Require Import Base BaseFacts Dict DictFacts ModelArith ModelCore SpecCore ModelDraw SpecPlot DrawFacts PropCore PropPlot ModelApp ModelJson SpecJson JsonFacts.
Import ListNotations.
Open Scope list_scope. Open Scope nat_scope.

(** ** C74: different values have different texts. *)
Theorem C74_texts_differ : forall j j', plain j -> plain j' -> dumps j = dumps j' -> j = j'.
Proof.
  intros j j' P P' E. destruct (dumps_reads j P j' [] [] P' I I) as [H _]; [rewrite !app_nil_r; exact E|exact H].
Qed.
Print Assumptions C74_texts_differ.

Lemma plain_keys : Forall plain_key ["size"; "ids"; "id"; "directed"; "multigraph"; "graph"; "nodes"; "adjacency"]%string.
Proof. repeat (constructor; [split; cbn; intuition discriminate|]). constructor. Qed.
Lemma key_plain k : In k ["size"; "ids"; "id"; "directed"; "multigraph"; "graph"; "nodes"; "adjacency"]%string -> plain_key k.
Proof. intro H. pose proof plain_keys as F. rewrite Forall_forall in F. auto. Qed.
Lemma node_plain n a : plain (node_data n a).
Proof.
  apply plain_obj. repeat constructor; cbn [fst snd plain]; try (apply key_plain; cbn; tauto); try exact I.
  apply plain_list. apply Forall_forall. intros x X. apply in_map_iff in X. destruct X as [i [<- _]]. exact I.
Qed.
Definition data_of (g : graph) : json :=
  JObj [("directed", JBool false); ("multigraph", JBool false); ("graph", JList []);
        ("nodes", JList (map (fun e => node_data (fst e) (snd e)) (g_nodes g)));
        ("adjacency", JList (map (fun x => JList (map (fun n => JObj [("id", JInt n)]) (snd x))) (g_adj g)))]%string.
Lemma adjacency_data_of g : well_formed g -> adjacency_data g = Ok (data_of g).
Proof.
  intros [N [K _]]. unfold adjacency_data.
  assert (E : map_res (fun x => do a <- dget_res Z.eqb (g_nodes g) (fst x); Ok (node_data (fst x) a)) (g_adj g) =
    Ok (map (fun e => node_data (fst e) (snd e)) (g_nodes g))).
  { assert (G : forall l adj, (forall e, In e l -> In e (g_nodes g)) -> map fst adj = map fst l ->
      map_res (fun x : Z * list Z => do a <- dget_res Z.eqb (g_nodes g) (fst x); Ok (node_data (fst x) a)) adj = Ok (map (fun e => node_data (fst e) (snd e)) l)).
    { induction l as [|[z a] l IH]; intros [|[z' nb] adj] I M; try discriminate; [reflexivity|]. cbn in M. injection M as -> M.
      assert (D : dget_res Z.eqb (g_nodes g) z = Ok a)
        by (unfold dget_res; rewrite (dget_entry_nodup Z.eqb Z.eqb_eq (g_nodes g) z a N (I (z, a) (or_introl eq_refl))); reflexivity).
      cbn [map_res fst]. rewrite D. cbn [bind].
      rewrite (IH adj (fun e J => I e (or_intror J)) M). reflexivity. }
    apply G; auto. }
  rewrite E. reflexivity.
Qed.
Lemma data_plain g : plain (data_of g).
Proof.
  apply plain_obj. repeat constructor; cbn [fst snd]; try (apply key_plain; cbn; tauto).
  - apply plain_list, Forall_forall. intros x X. apply in_map_iff in X. destruct X as [e [<- _]]. apply node_plain.
  - apply plain_list, Forall_forall. intros x X. apply in_map_iff in X. destruct X as [e [<- _]].
    apply plain_list, Forall_forall. intros y Y. apply in_map_iff in Y. destruct Y as [n [<- _]].
    apply plain_obj. repeat constructor; cbn [fst snd]; try (apply key_plain; cbn; tauto).
Qed.
Lemma map_inj {T U} (f : T -> U) : (forall x y, f x = f y -> x = y) -> forall l l', map f l = map f l' -> l = l'.
Proof. intros I. induction l as [|x l IH]; intros [|y l'] H; try discriminate; [reflexivity|]. cbn in H. injection H as H1 H2. f_equal; auto. Qed.
Lemma node_data_inj n a n' a' : node_data n a = node_data n' a' -> n = n' /\ a = a'.
Proof.
  destruct a as [s ids], a' as [s' ids']. unfold node_data. cbn. intro H. injection H as H1 H2 H3. apply Nat2Z.inj in H1. subst.
  apply map_inj in H2; [subst; auto|]. intros x y E. injection E as E. apply Nat2Z.inj, E.
Qed.

(** ** C74: the graph can be downloaded, and the downloaded text determines it: its nodes with their sizes
    and points and their neighbours, all in order. *)
Theorem C74_download : forall g, well_formed g ->
  (exists t, download_text g = Ok t) /\
  forall g', well_formed g' -> download_text g' = download_text g -> g' = g.
Proof.
  intros g W. unfold download_text. rewrite (adjacency_data_of g W). cbn [bind]. split; [eauto|].
  intros g' W' E. rewrite (adjacency_data_of g' W') in E. cbn [bind] in E.
  assert (E' : dumps (data_of g') = dumps (data_of g)) by exact (f_equal (fun r => match r with Ok t => t | Err _ => [] end) E).
  apply C74_texts_differ in E'; try apply data_plain. unfold data_of in E'. injection E' as E1 E2.
  assert (N : g_nodes g' = g_nodes g).
  { apply (map_inj (fun e => node_data (fst e) (snd e))); [|exact E1]. intros [n a] [n' a'] H. apply node_data_inj in H. cbn [fst snd] in H; destruct H as [-> ->]; reflexivity. }
  assert (A : map snd (g_adj g') = map snd (g_adj g)).
  { rewrite <- (map_map (fun x => snd x) (fun l => JList (map (fun n => JObj [("id"%string, JInt n)]) l)) (g_adj g')) in E2.
    rewrite <- (map_map (fun x => snd x) (fun l => JList (map (fun n => JObj [("id"%string, JInt n)]) l)) (g_adj g)) in E2.
    apply map_inj in E2; [exact E2|]. intros x y H. injection H as H. apply map_inj in H; [exact H|]. intros a b K. injection K as K. exact K. }
  destruct W as [_ [K _]], W' as [_ [K' _]]. rewrite N, <- K in K'. clear -N A K'.
  assert (Adj : g_adj g' = g_adj g).
  { revert A K'. generalize (g_adj g') (g_adj g). induction l as [|[a b] l IH]; intros [|[c d] l'] A B; try discriminate; [reflexivity|].
    cbn in A, B. injection A as -> A. injection B as -> B. f_equal. apply IH; assumption. }
  destruct g, g'. cbn in *. subst. reflexivity.
Qed.
Print Assumptions C74_download.

(** Representatives: each one of the first is related to one of the second, no two of them to the same. *)
Lemma reps_length (T : Type) (R : T -> T -> Prop) l : forall l', NoDup l -> (forall a, In a l -> exists b, In b l' /\ R a b) ->
  (forall a a' b, In a l -> In a' l -> R a b -> R a' b -> a = a') -> length l <= length l'.
Proof.
  induction l as [|x l IH]; intros l' N E U; cbn; [lia|]. inversion N as [|? ? Nx Nl]; subst.
  destruct (E x (or_introl eq_refl)) as [b [B Rb]]. apply in_split in B. destruct B as [l1 [l2 ->]].
  assert (L : length l <= length (l1 ++ l2)).
  { apply IH; [exact Nl| |intros a a' c A A'; apply U; cbn; auto]. intros a A. destruct (E a (or_intror A)) as [c [C Rc]]. exists c. split; [|exact Rc].
    apply in_app_or in C. apply in_or_app. destruct C as [C|[C|C]]; [auto| |auto]. subst c. exfalso. apply Nx. rewrite (U x a b); cbn; auto. }
  rewrite app_length in L |- *. cbn. lia.
Qed.
Lemma count_unique g k k' : component_count g k -> component_count g k' -> k = k'.
Proof.
  assert (H : forall k k', component_count g k -> component_count g k' -> k <= k').
  { clear. intros k k' [r [N [<- [A [B C]]]]] [r' [N' [<- [A' [B' C']]]]]. apply (reps_length Z (connected g)); [exact N| |].
    - intros a I. apply C', A, I.
    - intros a a' b I J Ra Rb. apply B; [exact I|exact J|]. eapply rst_trans; [exact Ra|]. apply rst_sym. exact Rb. }
  intros X Y. pose proof (H k k' X Y). pose proof (H k' k Y X). lia.
Qed.

(** ** C74: "Conn. Comp." in the table, if networkx counts correctly, is the number of labels other than -1
    that mapper_connected_components gives on the same data; "Nodes" and "Edges" count the nodes and the
    pairs of adjacent nodes. *)
Definition label_count (comps : list Z) : nat := length (nodup Z.eq_dec (filter (fun c => negb (c =? -1)%Z) comps)).
Theorem C74_stats :
  forall (S : Type) (X : list S) (opens : gen (list nat)) (clust : clustering S) g comps (A : arith) components (df_X df_y : frame A),
  mapper_graph X opens clust = Ok g -> mapper_connected_components X opens clust = Ok comps -> component_count g (components g) ->
  stats components df_X df_y g =
    [("Samples", fr_rows df_X); ("Input Feats", length (fr_cols df_X)); ("Target Feats", length (fr_cols df_y));
     ("Nodes", length (g_nodes g)); ("Edges", length (edges g)); ("Conn. Comp.", label_count comps)]%string /\
  lists_edges g (edges g).
Proof.
  intros S X opens clust g comps A components df_X df_y Hg Hc Cc.
  destruct (C41_mapper_graphs_drawable S X opens clust g Hg) as [W [Sy [L P]]]. split; [|exact L].
  unfold stats, nodes. rewrite map_length. do 5 f_equal. f_equal. f_equal.
  apply (count_unique g); [exact Cc|].
  assert (Hl := Hg). unfold mapper_graph in Hl. apply bind_ok in Hl. destruct Hl as [out [Ho _]].
  destruct (C05_components_match_graph S X opens clust out Ho) as [g' [comps' [E1 [E2 [Lc Q]]]]].
  rewrite Hg in E1. injection E1 as <-. rewrite Hc in E2. injection E2 as <-.
  set (ls := nodup Z.eq_dec (filter (fun c => negb (c =? -1)%Z) comps)).
  assert (M : forall c, In c ls -> exists i z n ids, nth_error comps i = Some c /\ node_attr g z n ids /\ In i ids).
  { intros c C. apply nodup_In, filter_In in C. destruct C as [C Nc]. apply In_nth_error in C. destruct C as [i Ei].
    destruct (Q i c Ei) as [Qm _]. destruct (Z.eqb_spec c (-1)) as [E|E]; [discriminate|].
    (* decidability of membership: search the nodes *)
    assert (D : (exists e, In e (g_nodes g) /\ In i (snd (snd e))) \/ ~ exists e, In e (g_nodes g) /\ In i (snd (snd e))).
    { induction (g_nodes g) as [|e l IH]; [right; intros [e [[] _]]|]. destruct (in_dec Nat.eq_dec i (snd (snd e))) as [I|I]; [left; exists e; cbn; auto|].
      destruct IH as [[e' [J K]]|IH]; [left; exists e'; cbn; auto|]. right. intros [e' [[<-|J] K]]; [contradiction|]. apply IH. eauto. }
    destruct D as [[[z [n ids]] [J K]]|D]; [exists i, z, n, ids; auto|]. exfalso. apply E, Qm. intros [z [n [ids [J K]]]]. apply D. exists (z, (n, ids)). auto. }
  exists ls. split; [apply NoDup_nodup|]. split; [reflexivity|]. split; [|split].
  - intros c C. destruct (M c C) as [i [z [n [ids [Ei [J K]]]]]]. apply (proj2 (Q i c Ei) z n ids J K).
  - intros a b Ia Ib Cab. destruct (M a Ia) as [i [z [n [ids [Ei [J K]]]]]]. destruct (M b Ib) as [i' [z' [n' [ids' [Ei' [J' K']]]]]].
    destruct (proj2 (Q i a Ei) z n ids J K) as [_ [Ca U]]. destruct (proj2 (Q i' b Ei') z' n' ids' J' K') as [_ [Cb _]].
    apply (U i' b z' n' ids' Ei' J' K'). eapply rst_trans; [exact Ca|]. eapply rst_trans; [exact Cab|]. apply rst_sym. exact Cb.
  - intros z Hz. unfold has_node in Hz. apply in_map_iff in Hz. destruct Hz as [[z0 [n ids]] [<- J]]. cbn [fst].
    destruct (P z0 n ids J) as [_ [Ne R]]. destruct ids as [|i ids]; [contradiction|]. assert (Ii : In i (i :: ids)) by (cbn; auto).
    destruct (nth_error comps i) as [c|] eqn:Ei; [|exfalso; apply nth_error_None in Ei; specialize (R i Ii); lia].
    destruct (Q i c Ei) as [Qm Qc]. destruct (Qc z0 n (i :: ids) J Ii) as [_ [Cz _]]. exists c. split; [|exact Cz].
    apply nodup_In, filter_In. split; [apply nth_error_In with i; exact Ei|].
    destruct (Z.eqb_spec c (-1)) as [E|E]; [|reflexivity]. exfalso. apply Qm in E. apply E. exists z0, n, (i :: ids). auto.
Qed.
Print Assumptions C74_stats.

(** The text of a small graph. *)
Definition small : graph := mkgraph [(0%Z, (2, [0; 1])); (1%Z, (1, [1]))] [(0%Z, [1%Z]); (1%Z, [0%Z])].
Example C74_download_example : well_formed small /\
  download_text small = Ok (la "{""directed"": false, ""multigraph"": false, ""graph"": [], ""nodes"": [{""size"": 2, ""ids"": [0, 1], ""id"": 0}, {""size"": 1, ""ids"": [1], ""id"": 1}], ""adjacency"": [[{""id"": 1}], [{""id"": 0}]]}").
Proof.
  split; [|reflexivity]. split; [repeat constructor; cbn; intuition discriminate|]. split; [reflexivity|].
  intros a nb [H|[H|[]]]; injection H as <- <-; repeat constructor; auto.
Qed.
Example C74_stats_example : component_count small 1.
Proof.
  exists [0%Z]. split; [repeat constructor; auto|]. split; [reflexivity|]. split; [intros a [<-|[]]; cbn; auto|]. split.
  - intros a b [<-|[]] [<-|[]] _. reflexivity.
  - intros z [<-|[<-|[]]]; exists 0%Z; split; cbn; auto; [apply rst_refl|]. apply rst_step. exists [0%Z]. cbn; auto.
Qed.
