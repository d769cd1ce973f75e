(** A concrete set of classes and objects, used in the examples about estimators. *)
From Coq Require Import String.
From Verif Require Import Base BaseFacts Dict DictFacts ModelCore ModelObjects SpecObjects ObjectFacts ObjectProp
  ModelValidate SpecValidate ModelLearn SpecLearn LearnLogic LearnFacts LearnStable.
Open Scope nat_scope.
Open Scope list_scope.

(** Numbers are integers, all finite; there are no other objects. *)
Definition enan (x : Z) : bool := false.
Definition einf (x : Z) : bool := false.
Definition efloat (o : Empty_set) : res Z := match o with end.
Notation epoint := (ndarray Z Empty_set).

Definition nums (a : epoint) : list Z := match a_entries a with ENum xs => xs | _ => [] end.
Definition int_param (p : string -> option value) (k : string) : Z := match p k with Some (VInt z) => z | _ => 0%Z end.

(** A cover with two sets: the lens values at most [width], and those at least 0. *)
Definition two_sets (p : string -> option value) (y : epoint) : gen (list nat) :=
  let ids t := map fst (filter (fun iz => t (snd iz)) (combine (seq 0 (length (nums y))) (nums y))) in
  mkgen [ids (fun z => (z <=? int_param p "width")%Z); ids (fun z => (0 <=? z)%Z)] None.

(** A clustering: label 0 below the threshold, 1 from it on; it needs two points. *)
Definition threshold (p : string -> option value) (xs : list epoint) : res (list Z) :=
  if length xs <? 2 then Err ValueError
  else Ok (map (fun x => if (match nums x with z :: _ => z | [] => 0 end <? int_param p "t")%Z then 0 else 1)%Z xs).

(** 0: MapperAlgorithm, 1: FailSafeClustering, 2: TrivialCover, 3: TrivialClustering,
    4: the cover, 5: the clustering (scikit-learn style), 6: MapperClustering. *)
Definition eclasses (c : nat) : class :=
  match c with
  | 0 => mkclass Mixin (Some [("cover"%string, VNone); ("clustering"%string, VNone); ("failsafe"%string, VBool true);
                              ("verbose"%string, VBool true); ("n_jobs"%string, VInt 1)]) ["fit"%string; "fit_transform"%string]
  | 1 => mkclass Mixin (Some [("clustering"%string, VNone); ("verbose"%string, VBool true)]) ["fit"%string]
  | 2 => mkclass Mixin (Some []) ["apply"%string]
  | 3 => mkclass Mixin (Some []) ["fit"%string]
  | 4 => mkclass Mixin (Some [("width"%string, VInt 0)]) ["apply"%string]
  | 5 => mkclass (Sklearn ["t"%string]) (Some [("t"%string, VInt 0)]) ["fit"%string]
  | 6 => mkclass Mixin (Some [("cover"%string, VNone); ("clustering"%string, VNone); ("n_jobs"%string, VInt 1)]) ["fit"%string]
  | _ => mkclass NoProtocol None []
  end.
Definition ebeh (c : nat) : behaviour Z Empty_set :=
  match c with
  | 0 => IsMapperAlgorithm
  | 1 => IsFailSafe
  | 2 => IsTrivialCover
  | 3 => IsTrivialClustering
  | 4 => IsCover two_sets
  | 5 => IsClustering threshold
  | 6 => IsMapperClustering
  | _ => IsOther
  end.

Lemma eclasses_ok : classes_ok eclasses ebeh 2 3 1.
Proof.
  constructor.
  - split; [reflexivity|]. split; reflexivity.
  - split; [reflexivity|]. split; reflexivity.
  - split; [reflexivity|]. split; reflexivity.
  - intros c H. do 7 (destruct c as [|c]; [first [reflexivity|simpl in H; destruct H as [H|[H|H]]; discriminate]|]).
    simpl in H. destruct H as [H|[H|H]]; discriminate.
  - intros c f H p q y E.
    do 7 (destruct c as [|c]; [first [discriminate H|injection H as <-; unfold two_sets, int_param; rewrite E; reflexivity]|]).
    discriminate H.
  - intros c f H p q xs E.
    do 7 (destruct c as [|c]; [first [discriminate H|injection H as <-; unfold threshold, int_param; rewrite E; reflexivity]|]).
    discriminate H.
Qed.

(** A cover, a clustering (fitted before), a MapperAlgorithm with both, a
    MapperClustering with both, a FailSafeClustering around the clustering, and a
    MapperAlgorithm with that. *)
Definition eheap : heap :=
  [ mkobj 4 [("width"%string, VInt 5)];
    mkobj 5 [("t"%string, VInt 5); ("labels_"%string, VLabels [0; 1; 0; 1]%Z)];
    mkobj 0 [("cover"%string, VRef 0); ("clustering"%string, VRef 1); ("failsafe"%string, VBool true); ("verbose"%string, VBool true);
             ("n_jobs"%string, VInt 1); ("_n_jobs"%string, VInt 1)];
    mkobj 6 [("cover"%string, VRef 0); ("clustering"%string, VRef 1); ("n_jobs"%string, VInt 1)];
    mkobj 1 [("clustering"%string, VRef 1); ("verbose"%string, VBool false)];
    mkobj 0 [("cover"%string, VRef 0); ("clustering"%string, VRef 4); ("failsafe"%string, VBool false); ("verbose"%string, VBool true);
             ("n_jobs"%string, VInt 2)] ].
Definition erank (l : nat) : nat := match l with 0 | 1 => 0 | 5 => 2 | _ => 1 end.

Ltac nodups := repeat (constructor; [simpl; intuition discriminate|]); constructor.
Ltac each_loc l N tac := do 6 (destruct l as [|l]; [injection N as <-; solve [tac]|]); destruct l; discriminate N.

Lemma eheap_ok : heap_ok eclasses eheap erank.
Proof.
  constructor.
  - intros l o N. each_loc l N ltac:((split; [nodups|]); intros k v I P; simpl in I;
      repeat (destruct I as [I|I]; [injection I as <- _; first [discriminate P|pname]|]); destruct I).
  - intros l k l' _ A. unfold attr in A. destruct (nth_error eheap l) as [o|] eqn:N; [|discriminate].
    apply (dget_entry _ string_dec_ok) in A.
    each_loc l N ltac:(simpl in A;
      repeat (destruct A as [A|A]; [first [discriminate A|injection A as _ <-; simpl; lia]|]); destruct A).
  - intros l o names N E. each_loc l N ltac:(first [discriminate E|injection E as <-; split; [nodups|]; intros k I; simpl in I;
      repeat (destruct I as [<-|I]; [split; [pname|eexists; reflexivity]|]); destruct I]).
Qed.

Lemma dset_keys_check (o : obj) (d : list (string * value)) : map fst (filter (fun kv => is_public (fst kv)) (o_attrs o)) = map fst (filter (fun kv => is_public (fst kv)) d) ->
  forall k, is_public k = true -> ((exists v, attr_of o k = Some v) <-> In k (map fst d)).
Proof.
  assert (G : forall l k, is_public k = true -> (In k (map fst l) <-> In k (map fst (filter (fun kv : string * value => is_public (fst kv)) l)))).
  { intros l k P. rewrite !in_map_iff. split.
    - intros [kv [<- I]]. exists kv. split; [reflexivity|]. apply filter_In. auto.
    - intros [kv [<- I]]. exists kv. split; [reflexivity|]. apply filter_In in I. tauto. }
  intros E k P. unfold attr_of. rewrite (dget_in _ string_dec_ok), (G d k P), <- E. apply G, P.
Qed.

Lemma eheap_made : made eclasses eheap.
Proof.
  assert (D : forall c d, c_init (eclasses c) = Some d -> init_ok d).
  { intros c d E. do 7 (destruct c as [|c]; [injection E as <-; split; [nodups|split; [intros k v I _; simpl in I;
      repeat (destruct I as [I|I]; [injection I as <- _; pname|]); destruct I|intros k l I; simpl in I; intuition discriminate]]|]).
    discriminate E. }
  intros l o d N P E. split; [eapply D, E|]. unfold params_of_class.
  each_loc l N ltac:(simpl in E; injection E as <-; first [refine (dset_keys_check _ _ _); reflexivity|intros k I; exact I]).
Qed.

(** Parameters of a concrete object, by running [get_params]. *)
Lemma view_of_params classes h rank lim l ps : heap_ok classes h rank -> rank l < lim -> has_protocol classes h l ->
  get_params classes lim h true l = Ok ps -> view classes h l (dget String.eqb ps).
Proof.
  intros W L P E. destruct (get_params_ok classes h rank W lim l L P) as [ps' [E' [_ R]]].
  rewrite E in E'. injection E' as <-. intros key v. apply R.
Qed.

Definition ecov : epoint -> gen (list nat) := two_sets (dget String.eqb [("width"%string, VInt 5)]).
Definition ecl : list epoint -> res (list Z) := threshold (dget String.eqb [("t"%string, VInt 5)]).

Lemma ecover_of : cover_of eclasses ebeh eheap (VRef 0) ecov.
Proof.
  apply cov_other.
  - eexists. eexists. split; [reflexivity|]. split; [discriminate|reflexivity].
  - eexists. split; reflexivity.
  - apply (view_of_params eclasses eheap erank 3 0); [exact eheap_ok|simpl; lia|eexists; split; [reflexivity|discriminate]|reflexivity].
Qed.
Lemma eclust_of : clust_of enan einf efloat eclasses ebeh eheap 1 ecl.
Proof.
  apply clu_other.
  - eexists. split; reflexivity.
  - eexists. split; [reflexivity|discriminate].
  - apply (view_of_params eclasses eheap erank 3 1); [exact eheap_ok|simpl; lia|eexists; split; [reflexivity|discriminate]|reflexivity].
Qed.
Lemma eclusterings : clustering_of enan einf efloat eclasses ebeh eheap (VRef 1) ecl /\
  clustering_of enan einf efloat eclasses ebeh eheap (VRef 4) (failsafe_clustering (Some ecl)).
Proof.
  split; constructor.
  - eexists. eexists. split; [reflexivity|]. split; [discriminate|reflexivity].
  - exact eclust_of.
  - eexists. eexists. split; [reflexivity|]. split; [discriminate|reflexivity].
  - apply clu_failsafe with (vb := VBool false) (r' := 1); [eexists; split; reflexivity|reflexivity|reflexivity|exact eclust_of].
Qed.
Lemma emapper : mapper_of enan einf efloat eclasses ebeh eheap 2 ecov (failsafe_clustering (Some ecl)).
Proof.
  split; [eexists; split; reflexivity|]. exists (VRef 0), (VRef 1), (VBool true), (VBool true), (VInt 1), ecl.
  split; [reflexivity|]. split; [exact ecover_of|]. split; [reflexivity|]. split; [apply eclusterings|]. repeat split.
Qed.
Lemma emapper_clustering : mapper_clustering_of enan einf efloat eclasses ebeh eheap 3 ecov ecl.
Proof.
  split; [eexists; split; reflexivity|]. exists (VRef 0), (VRef 1), (VInt 1).
  split; [reflexivity|]. split; [exact ecover_of|]. split; [reflexivity|]. split; [apply eclusterings|reflexivity].
Qed.

(** Data: four points on a line, the lens being the coordinate. *)
Definition einput (s : list nat) (xs : list Z) : input Z Empty_set := mkinput false (Ok (mkarr s (ENum xs))).
Definition eX : input Z Empty_set := einput [4; 1] [1; 4; 6; 9]%Z.
Definition ey : input Z Empty_set := einput [4] [-2; 2; 3; 9]%Z.
