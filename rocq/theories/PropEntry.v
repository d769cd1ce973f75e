(** C71: the entry point of the web application, and its clients. *)
From Coq Require Import String Ascii Lia.
From Verif Require Import Base BaseFacts ModelEntry SpecEntry EntryFacts.
From Verif Require Import ModelArith ModelCore ModelApp SpecApp.
From Verif Require PropApp.
Open Scope string_scope. Open Scope nat_scope.

(** The value of a variable, or what is used if it is not set. *)
Definition setting (env : environment) (name default s : string) : Prop :=
  env name = Some s \/ env name = None /\ s = default.

(** ** C71: the server runs, on the port written in PORT, exactly if PORT is the text of an integer; otherwise [main] raises
    ValueError and no server runs. *)
Theorem C71_port : forall env port, setting env "PORT" "8080" port ->
  (forall z, numeral 4300 port z -> exists s, main env = ([PageRegistered; ServerRun s], Ok tt) /\ s_port s = z) /\
  ((forall z, ~ numeral 4300 port z) -> main env = ([PageRegistered], Err ValueError)).
Proof.
  intros env port H. assert (E : getenv env "PORT" "8080" = port) by (unfold getenv; destruct H as [->|[-> ->]]; reflexivity).
  unfold main. rewrite E. split.
  - intros z N. apply int_spec in N. rewrite N. eexists. split; reflexivity.
  - intro N. destruct (py_int port) as [z|e] eqn:P; [exfalso; apply (N z), int_spec, P|]. rewrite (int_errors port e P). reflexivity.
Qed.
Print Assumptions C71_port.

(** ** C71: a text is the text of at most one integer. *)
Theorem C71_numeral_unique : forall s z z', numeral 4300 s z -> numeral 4300 s z' -> z = z'.
Proof. intros s z z' H H'. apply int_spec in H, H'. congruence. Qed.
Print Assumptions C71_numeral_unique.

(** ** C71: host and secret are those given; the server reloads unless PRODUCTION is "true", in lower or upper case. *)
Theorem C71_settings : forall env s, In (ServerRun s) (fst (main env)) ->
  setting env "HOST" "0.0.0.0" (s_host s) /\ setting env "STORAGE_SECRET" "storage_secret" (s_secret s) /\
  (s_reload s = false <-> exists t, env "PRODUCTION" = Some t /\ yes t).
Proof.
  intros env s H. unfold main in H. destruct (py_int (getenv env "PORT" "8080")) as [p|e]; simpl in H; [|destruct H as [H|[]]; discriminate].
  destruct H as [H|[H|[]]]; [discriminate|]. injection H as <-. simpl. unfold setting, getenv.
  split; [destruct (env "HOST"); auto|]. split; [destruct (env "STORAGE_SECRET"); auto|].
  rewrite Bool.negb_false_iff, String.eqb_eq, lower_spec. split.
  - destruct (env "PRODUCTION") as [t|]; intro Y; [exists t; auto|]. destruct Y as [a [b [c [d [E _]]]]]. discriminate.
  - intros [t [-> Y]]. exact Y.
Qed.
Print Assumptions C71_settings.

(** Non-vacuity, and settings that are not obvious. *)
Definition env_of (l : list (string * string)) : environment := fun n => match find (fun p => String.eqb (fst p) n) l with Some p => Some (snd p) | None => None end.
Example C71_runs :
  main (env_of []) = ([PageRegistered; ServerRun (mksettings "0.0.0.0" 8080 true "storage_secret")], Ok tt) /\
  main (env_of [("PORT", " 8_0 "); ("PRODUCTION", "TRUE"); ("HOST", "::1")]) = ([PageRegistered; ServerRun (mksettings "::1" 80 false "storage_secret")], Ok tt) /\
  main (env_of [("PORT", "-7"); ("PRODUCTION", "1")]) = ([PageRegistered; ServerRun (mksettings "0.0.0.0" (-7) true "storage_secret")], Ok tt) /\
  main (env_of [("PORT", "80a")]) = ([PageRegistered], Err ValueError) /\
  main (env_of [("PORT", "8__0")]) = ([PageRegistered], Err ValueError).
Proof. split; [|split; [|split; [|split]]]; reflexivity. Qed.
Example C71_hypotheses_met : setting (env_of [("PORT", " +08_0")]) "PORT" "8080" " +08_0" /\ numeral 4300 " +08_0" 80 /\
  (forall z, ~ numeral 4300 "http" z) /\ yes "True".
Proof.
  split; [left; reflexivity|]. split; [apply int_spec; reflexivity|]. split; [intros z H; apply int_spec in H; discriminate|].
  exists "T"%char, "r"%char, "u"%char, "e"%char. split; [reflexivity|]. simpl. tauto.
Qed.

(** ** C71: a variable that is set but empty does not give the default port. *)
Theorem C71_empty_port_refuted : exists env, env "PORT" = Some "" /\ snd (main env) = Err ValueError.
Proof. exists (env_of [("PORT", "")]). split; reflexivity. Qed.
Print Assumptions C71_empty_port_refuted.

(** ** C71: every client has its own page: it is a new page after the events of this client since it was opened, whatever
    happens on the pages of the others in between. *)
Theorem C71_clients : forall (page event : Type) (new_page : page) (step : event -> page -> page) c hs0 hs,
  (forall h, In h hs -> h <> Opens c) ->
  page_of (history new_page step (hs0 ++ Opens c :: hs)) c = Some (fold_left (fun p e => step e p) (client_events c hs) new_page) /\
  page_of (history new_page step hs) c = None.
Proof.
  intros page event new_page step c hs0 hs H. unfold history. split.
  - rewrite fold_left_app. simpl. apply serve_client; [exact H|apply page_self].
  - apply serve_never; [exact H|reflexivity].
Qed.
Print Assumptions C71_clients.

Section Pages.
Variable A : arith.
Variable missing : num A -> bool.
Variable nan : num A.
Variable trunc : num A -> res Z.
Variables pca umap : Z -> matrix A -> res (matrix A).
Variable scaler : matrix A -> res (matrix A).
Variable mapper_fit : cover_spec A -> clust_spec A -> matrix A -> matrix A -> res graph.
Variable CS : Type.
Variable get_colorscale : string -> res CS.
Variable plotly_cmap : string -> option string.
Variable str_num : num A -> string.
Variable layout_of : Z -> Z -> nat -> graph -> list (list (num A)).
Variables digits iris : frame A * frame A.
Notation fixd := (fix_data A missing nan).
Notation run := (run_mapper A nan pca umap scaler mapper_fit).
Notation stp := (step A missing nan trunc pca umap scaler mapper_fit CS get_colorscale plotly_cmap str_num layout_of digits iris).

(** ** C71: so what a client is shown are data this client loaded, and a graph of a run this client started. *)
Theorem C71_client_sees_own_data : forall c hs0 hs p d, (forall h, In h hs -> h <> Opens c) ->
  page_of (history new_page stp (hs0 ++ Opens c :: hs)) c = Some p -> In d (p_drawings p) \/ p_shown p = Some d ->
  was_loaded fixd digits iris (client_events c hs) (d_X d) /\ one_run fixd digits iris run (client_events c hs) (d_graph d) (d_y d).
Proof.
  intros c hs0 hs p d H E Hd. rewrite (proj1 (C71_clients _ _ new_page stp c hs0 hs H)) in E. injection E as <-.
  apply (PropApp.C46_one_run A missing nan trunc pca umap scaler mapper_fit CS get_colorscale plotly_cmap str_num layout_of digits iris). exact Hd.
Qed.
End Pages.
Print Assumptions C71_client_sees_own_data.

(** Non-vacuity: counters of two clients. *)
Example C71_two_clients :
  let hs := [Opens 1; Happens 1 5; Opens 2; Happens 2 7; Happens 1 1; Happens 3 9] in
  page_of (history 0 plus hs) 1 = Some 6 /\ page_of (history 0 plus hs) 2 = Some 7 /\ page_of (history 0 plus hs) 3 = None.
Proof. split; [|split]; reflexivity. Qed.
