(** Specification vocabulary for the estimators: what the objects given as cover
    and clustering mean, and what [fit] may change. *)
From Coq Require Import String.
From Verif Require Import Base Dict ModelCore ModelObjects SpecObjects ModelValidate ModelLearn.
Open Scope nat_scope.
Open Scope list_scope.

(** From [h] to [h'] no object lost, changed its class or any attribute with the
    name of a parameter. *)
Definition kept (h h' : heap) : Prop :=
  forall l o, nth_error h l = Some o -> exists o', nth_error h' l = Some o' /\ o_class o' = o_class o /\
    forall k, param_name k -> attr_of o' k = attr_of o k.

Section Spec.
Context {F O : Type}.
Variable is_nan : F -> bool.
Variable is_inf : F -> bool.
Variable to_float : O -> res F.
Notation point := (ndarray F O).
Variable classes : nat -> class.
Variable beh : nat -> behaviour F O.
Variables c_tcover c_tclust c_failsafe : nat.

(** The assumptions on classes. The three library classes have the constructors of
    core.py; the library's estimators use [ParamsMixin]; a third-party class uses
    its parameters only through their values. *)
Record classes_ok : Prop := mk_classes_ok {
  co_tcover : c_protocol (classes c_tcover) = Mixin /\ c_init (classes c_tcover) = Some [] /\ beh c_tcover = IsTrivialCover;
  co_tclust : c_protocol (classes c_tclust) = Mixin /\ c_init (classes c_tclust) = Some [] /\ beh c_tclust = IsTrivialClustering;
  co_failsafe : c_protocol (classes c_failsafe) = Mixin /\
    c_init (classes c_failsafe) = Some [("clustering"%string, VNone); ("verbose"%string, VBool true)] /\ beh c_failsafe = IsFailSafe;
  co_mixin : forall c, beh c = IsFailSafe \/ beh c = IsMapperClustering \/ beh c = IsMapperAlgorithm ->
    c_protocol (classes c) = Mixin;
  co_cover : forall c f, beh c = IsCover f -> forall p q y, (forall k, p k = q k) -> f p y = f q y;
  co_clust : forall c f, beh c = IsClustering f -> forall p q xs, (forall k, p k = q k) -> f p xs = f q xs }.

(** Objects are as their constructors make them: parameters may have other values,
    but there are no more and no fewer of them. *)
Definition made (h : heap) : Prop :=
  forall l o d, nth_error h l = Some o -> c_protocol (classes (o_class o)) <> NoProtocol ->
    c_init (classes (o_class o)) = Some d -> init_ok d /\ params_of_class classes o d.

Definition behaves (h : heap) (l : nat) (b : behaviour F O) : Prop :=
  exists o, nth_error h l = Some o /\ beh (o_class o) = b.

(** [clone] applies to the object. *)
Definition cloneable (h : heap) (l : nat) : Prop :=
  exists o d, nth_error h l = Some o /\ c_protocol (classes (o_class o)) <> NoProtocol /\ c_init (classes (o_class o)) = Some d.

(** [p] gives the parameters of the object, nested ones included. *)
Definition view (h : heap) (l : nat) (p : string -> option value) : Prop :=
  forall key v, p key = Some v <-> resolves classes h l key v.

(** The cover that a parameter stands for: a function of the lens values. *)
Inductive cover_of (h : heap) : value -> (point -> gen (list nat)) -> Prop :=
| cov_none : cover_of h VNone trivial_apply
| cov_trivial l : cloneable h l -> behaves h l IsTrivialCover -> cover_of h (VRef l) trivial_apply
| cov_other l f p : cloneable h l -> behaves h l (IsCover f) -> view h l p -> cover_of h (VRef l) (f p).

(** MapperClustering used as a clustering of rows [xs]. *)
Definition nested_mapper (cov : point -> gen (list nat)) (c : list point -> res (list Z)) (xs : list point) : res (list Z) :=
  do v <- validate is_nan is_inf to_float (input_of_rows xs) (input_of_rows xs);
  do rs <- rows (fst v);
  mapper_connected_components rs (cov (snd v)) (fun _ => c).

(** The clustering an object stands for: from the points to their labels. It
    depends on parameters only, not on the fitted state of any object. *)
Inductive clust_of (h : heap) : nat -> (list point -> res (list Z)) -> Prop :=
| clu_trivial r : behaves h r IsTrivialClustering -> clust_of h r trivial_clustering
| clu_failsafe_none r vb : behaves h r IsFailSafe -> attr h r "clustering" = Some VNone -> attr h r "verbose" = Some vb ->
    clust_of h r (failsafe_clustering None)
| clu_failsafe r vb r' c : behaves h r IsFailSafe -> attr h r "clustering" = Some (VRef r') -> attr h r "verbose" = Some vb ->
    clust_of h r' c -> clust_of h r (failsafe_clustering (Some c))
| clu_other r f p : behaves h r (IsClustering f) -> has_protocol classes h r -> view h r p -> clust_of h r (f p)
| clu_mapper_none r vc cov nj : behaves h r IsMapperClustering ->
    attr h r "cover" = Some vc -> cover_of h vc cov -> attr h r "clustering" = Some VNone -> attr h r "n_jobs" = Some nj ->
    clust_of h r (nested_mapper cov trivial_clustering)
| clu_mapper r vc cov r' c nj : behaves h r IsMapperClustering ->
    attr h r "cover" = Some vc -> cover_of h vc cov -> attr h r "clustering" = Some (VRef r') -> attr h r "n_jobs" = Some nj ->
    cloneable h r' -> clust_of h r' c -> clust_of h r (nested_mapper cov c).

(** The clustering a parameter stands for. *)
Inductive clustering_of (h : heap) : value -> (list point -> res (list Z)) -> Prop :=
| cl_none : clustering_of h VNone trivial_clustering
| cl_ref r c : cloneable h r -> clust_of h r c -> clustering_of h (VRef r) c.

(** The parameters of a MapperAlgorithm: its cover, and its clustering with the
    failsafe wrapper if asked for. *)
Definition mapper_of (h : heap) (m : nat) (cov : point -> gen (list nat)) (c : list point -> res (list Z)) : Prop :=
  behaves h m IsMapperAlgorithm /\
  exists vc vk fs vb nj c0, attr h m "cover" = Some vc /\ cover_of h vc cov /\
    attr h m "clustering" = Some vk /\ clustering_of h vk c0 /\
    attr h m "failsafe" = Some fs /\ attr h m "verbose" = Some vb /\ attr h m "n_jobs" = Some nj /\
    c = if truthy fs then failsafe_clustering (Some c0) else c0.

(** The parameters of a MapperClustering. *)
Definition mapper_clustering_of (h : heap) (m : nat) (cov : point -> gen (list nat)) (c : list point -> res (list Z)) : Prop :=
  behaves h m IsMapperClustering /\
  exists vc vk nj, attr h m "cover" = Some vc /\ cover_of h vc cov /\
    attr h m "clustering" = Some vk /\ clustering_of h vk c /\ attr h m "n_jobs" = Some nj.

(** The objects, other than itself, that a clone of the clustering [r] writes to
    when it is fitted: what a FailSafeClustering wraps is shared by all its clones. *)
Inductive shares (h : heap) : nat -> nat -> Prop :=
| sh_wrapped r r' : behaves h r IsFailSafe -> attr h r "clustering" = Some (VRef r') -> shares h r r'
| sh_below r r' l : behaves h r IsFailSafe \/ behaves h r IsMapperClustering ->
    attr h r "clustering" = Some (VRef r') -> shares h r' l -> shares h r l.

(** What fitting on [X] and [y] (or [X] alone) computes: the graph, or the labels of
    connected components. A validated array without rows (0-d) makes it fail. *)
Definition fits_graph (X : input F O) (y : option (input F O)) cov c (g : res graph) : Prop :=
  match validate is_nan is_inf to_float X (match y with None => X | Some y' => y' end) with
  | Err e => g = Err e
  | Ok (X', y') => match rows X' with
                   | Ok rs => g = mapper_graph rs (cov y') (fun _ => c)
                   | Err _ => exists e, g = Err e
                   end
  end.
Definition fits_labels (X : input F O) (y : option (input F O)) cov c (l : res (list Z)) : Prop :=
  match validate is_nan is_inf to_float X (match y with None => X | Some y' => y' end) with
  | Err e => l = Err e
  | Ok (X', y') => match rows X' with
                   | Ok rs => l = mapper_connected_components rs (cov y') (fun _ => c)
                   | Err _ => exists e, l = Err e
                   end
  end.

(** The heaps one can get from [h] by fitting and cloning objects, in any order,
    with any data, successfully or not. *)
Inductive history (h : heap) : heap -> Prop :=
| hi_start : history h h
| hi_algorithm lim m X y h' : history h h' -> behaves h' m IsMapperAlgorithm ->
    history h (fst (run (mapper_algorithm_fit is_nan is_inf to_float classes beh c_tcover c_tclust c_failsafe lim m X y) h'))
| hi_mapper_clustering lim m X y h' : history h h' ->
    history h (fst (run (mapper_clustering_fit is_nan is_inf to_float classes beh c_tcover c_tclust lim m X y) h'))
| hi_clustering lim r xs h' : history h h' ->
    history h (fst (run (fit_clust is_nan is_inf to_float classes beh c_tcover c_tclust lim r xs) h'))
| hi_clone lim v h' : history h h' -> history h (fst (run (pclone classes lim v) h')).
End Spec.
