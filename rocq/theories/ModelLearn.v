(** Model of src/tdamapper/learn.py, and of the clustering objects of
    src/tdamapper/core.py, as programs on the object heap.

    A program is a sequence of atomic steps on a shared heap, so that the programs
    of several threads can be interleaved (ModelParallel). One step is one read or
    write of an attribute, one allocation, or one call of [clone]. *)
From Coq Require Import String.
From Verif Require Import Base Dict ModelUnionFind ModelCore ModelObjects ModelValidate.
Open Scope nat_scope.
Open Scope list_scope.

(** [Ret r]: ended with a value or an exception. [Act upd next]: one step that
    changes the heap [h] to [upd h] and goes on with [next h]. *)
Inductive prog (A : Type) : Type :=
| Ret (r : res A)
| Act (upd : heap -> heap) (next : heap -> prog A).
Arguments Ret {A}. Arguments Act {A}.

Fixpoint pbind {A B : Type} (p : prog A) (f : A -> prog B) : prog B :=
  match p with
  | Ret (Ok a) => f a
  | Ret (Err e) => Ret (Err e)
  | Act upd next => Act upd (fun h => pbind (next h) f)
  end.
Notation "'prg' x <- e ; k" := (pbind e (fun x => k))
  (at level 200, x pattern, e at level 100, k at level 200, right associativity).

(** [try: p except e: handler(e)]. *)
Fixpoint pcatch {A : Type} (p : prog A) (handler : exn -> prog A) : prog A :=
  match p with
  | Ret (Ok a) => Ret (Ok a)
  | Ret (Err e) => handler e
  | Act upd next => Act upd (fun h => pcatch (next h) handler)
  end.

(** Running a program alone. *)
Fixpoint run {A : Type} (p : prog A) (h : heap) : heap * res A :=
  match p with
  | Ret r => (h, r)
  | Act upd next => run (next h) (upd h)
  end.

Definition lift {A : Type} (r : res A) : prog A := Ret r.
Definition look {A : Type} (f : heap -> res A) : prog A := Act (fun h => h) (fun h => Ret (f h)).

(** [getattr(l, k)]. *)
Definition get (l : nat) (k : string) : prog value :=
  look (fun h => do o <- rd h l; match attr_of o k with Some v => Ok v | None => Err AttributeError end).
(** [setattr(l, k, v)]. *)
Definition put (l : nat) (k : string) (v : value) : prog unit :=
  Act (fun h => match set_attr h l k v with Ok h' => h' | Err _ => h end)
      (fun h => Ret (do _ <- set_attr h l k v; Ok tt)).
(** Allocation of an object. *)
Definition new (o : obj) : prog nat := Act (fun h => h ++ [o]) (fun h => Ret (Ok (length h))).

Definition as_labels (v : value) : res (list Z) := match v with VLabels l => Ok l | _ => Err TypeError end.
(** Truth value of an attribute. *)
Definition truthy (v : value) : bool :=
  match v with
  | VNone => false
  | VBool b => b
  | VInt z => negb (Z.eqb z 0)
  | VStr s => negb (String.eqb s EmptyString)
  | VLabels l => match l with [] => false | _ => true end
  | _ => true
  end.

Section Learn.
Context {F O : Type}.
Variable is_nan : F -> bool.
Variable is_inf : F -> bool.
Variable to_float : O -> res F.
Notation point := (ndarray F O).
Notation input := (input F O).

(** How an object of a class behaves when used as a cover or as a clustering.
    A third-party class is a function of the parameters it reads (by name, with
    nested names) and of the data. Its other state is only [labels_]. *)
Inductive behaviour : Type :=
| IsTrivialCover | IsTrivialClustering | IsFailSafe | IsMapperClustering | IsMapperAlgorithm
| IsCover (apply : (string -> option value) -> point -> gen (list nat))
| IsClustering (fit : (string -> option value) -> list point -> res (list Z))
| IsOther.

Variable classes : nat -> class.
Variable beh : nat -> behaviour.
(** The class numbers of TrivialCover, TrivialClustering and FailSafeClustering. *)
Variables c_tcover c_tclust c_failsafe : nat.

Definition behaviour_at (l : nat) : prog behaviour := look (fun h => do o <- rd h l; Ok (beh (o_class o))).
Definition params_at (lim l : nat) : prog (list (string * value)) := look (fun h => get_params classes lim h true l).
(** [clone(v)]. The model does it in one step; it reads parameters and writes
    only the new object. If it raises, the half-made object is garbage. *)
Definition pclone (lim : nat) (v : value) : prog nat :=
  prg l <- lift (as_ref v);
  Act (fun h => match clone classes lim h l with Ok r => snd r | Err _ => h end)
      (fun h => Ret (do r <- clone classes lim h l; Ok (fst r))).

(** [cover.apply(y)]: TrivialCover (core.py:291-299) or another class. The model
    runs the generator to its end here; in the code it runs while the jobs are
    dispatched, which makes no difference to a cover that depends on its
    parameters and [y] only. *)
Definition trivial_apply (y : point) : gen (list nat) :=
  match rows y with
  | Ok rs => trivial_cover rs
  | Err e => mkgen [] (Some e)
  end.
Definition cover_apply (lim l : nat) (y : point) : prog (gen (list nat)) :=
  prg b <- behaviour_at l;
  match b with
  | IsTrivialCover => lift (Ok (trivial_apply y))
  | IsCover apply => prg ps <- params_at lim l; lift (Ok (apply (dget String.eqb ps) y))
  | _ => lift (Err AttributeError)
  end.

(** [X[j]]: a 0-d array cannot be indexed. *)
Definition items (X : point) : list point := match rows X with Ok rs => rs | Err _ => [] end.

(** Everything below needs [fit] of clustering objects, given as [fitc]. *)
Section WithFit.
Variable fitc : nat -> list point -> prog unit.

(** core.py:94-98 [_run_clustering]: [clust.fit(X_local).labels_]. *)
Definition job (cl : nat) (xs : list point) : prog (list Z) :=
  prg _ <- fitc cl xs;
  prg v <- get cl "labels_";
  lift (as_labels v).

(** core.py:100-105 with [n_jobs = 1]. *)
Fixpoint jobs_seq (lim : nat) (X : list point) (cl : nat) (opens : list (list nat)) (after : option exn)
  : prog (list (list nat * list Z)) :=
  match opens with
  | [] => lift (match after with None => Ok [] | Some e => Err e end)
  | ids :: opens' =>
      prg xs <- lift (map_res (rd X) ids);
      prg c <- pclone lim (VRef cl);
      prg lbls <- job c xs;
      prg ps <- jobs_seq lim X cl opens' after;
      lift (Ok ((ids, lbls) :: ps))
  end.

(** core.py:61-116 [mapper_labels]; [cover] and [cl] are references. *)
Definition p_mapper_labels (lim : nat) (X y : point) (cover cl : nat) : prog (list (list Z)) :=
  prg opens <- cover_apply lim cover y;
  prg parts <- jobs_seq lim (items X) cl (yields opens) (stops opens);
  prg rs <- lift (rows X);
  lift (assign_labels (length rs) parts).

(** core.py:167-213 [mapper_graph]. *)
Definition p_mapper_graph (lim : nat) (X y : point) (cover cl : nat) : prog graph :=
  prg itm_lbls <- p_mapper_labels lim X y cover cl;
  lift (graph_of_labels itm_lbls).

(** core.py:119-164 [mapper_connected_components]. *)
Definition components_of_labels (itm_lbls : list (list Z)) : res (list Z) :=
  do u <- union_all itm_lbls (uf_init Z.eqb (Reusable (label_values itm_lbls)));
  assign_roots itm_lbls u.
Definition p_mapper_connected_components (lim : nat) (X y : point) (cover cl : nat) : prog (list Z) :=
  prg itm_lbls <- p_mapper_labels lim X y cover cl;
  lift (components_of_labels itm_lbls).

(** _common.py:115-123 [_set_n_features_in]. *)
Definition set_n_features_in (m : nat) (X : point) : prog unit :=
  prg d <- lift (rd (a_shape X) 1);
  put m "n_features_in_" (VInt (Z.of_nat d)).

(** learn.py:65-91 [MapperClustering.fit]. *)
Definition mc_fit (lim m : nat) (X : input) (y : option input) : prog unit :=
  prg v <- lift (validate is_nan is_inf to_float X (match y with None => X | Some y' => y' end));
  let '(X', y') := v in
  prg c <- get m "cover";
  prg c1 <- match c with VNone => prg t <- new (mkobj c_tcover []); lift (Ok (VRef t)) | _ => lift (Ok c) end;
  prg cover <- pclone lim c1;
  prg k <- get m "clustering";
  prg k1 <- match k with VNone => prg t <- new (mkobj c_tclust []); lift (Ok (VRef t)) | _ => lift (Ok k) end;
  prg cl <- pclone lim k1;
  prg _ <- get m "n_jobs";
  prg itm_lbls <- p_mapper_connected_components lim X' y' cover cl;
  prg rs <- lift (rows X');
  prg lbls <- lift (map_res (rd itm_lbls) (seq 0 (length rs)));
  prg _ <- put m "labels_" (VLabels lbls);
  set_n_features_in m X'.

(** learn.py:147-173 [MapperAlgorithm.fit] up to the call of [mapper_graph]: the
    validated data, the cover and the clustering. *)
Definition ma_prepare (lim m : nat) (X : input) (y : option input) : prog (point * point * nat * nat) :=
  prg v <- lift (validate is_nan is_inf to_float X (match y with None => X | Some y' => y' end));
  let '(X', y') := v in
  prg t <- new (mkobj c_tcover []);
  prg _ <- put m "_cover" (VRef t);
  prg c <- get m "cover";
  prg _ <- match c with
           | VNone => lift (Ok tt)
           | _ => prg l <- pclone lim c; put m "_cover" (VRef l)
           end;
  prg t2 <- new (mkobj c_tclust []);
  prg _ <- put m "_clustering" (VRef t2);
  prg k <- get m "clustering";
  prg _ <- match k with
           | VNone => lift (Ok tt)
           | _ => prg l <- pclone lim k; put m "_clustering" (VRef l)
           end;
  prg vb <- get m "verbose";
  prg _ <- put m "_verbose" vb;
  prg fs <- get m "failsafe";
  prg _ <- put m "_failsafe" fs;
  prg fs1 <- get m "_failsafe";
  prg _ <- (if truthy fs1 then
              prg k1 <- get m "_clustering";
              prg vb1 <- get m "_verbose";
              prg l <- new (mkobj c_failsafe [("clustering"%string, k1); ("verbose"%string, vb1)]);
              put m "_clustering" (VRef l)
            else lift (Ok tt));
  prg nj <- get m "n_jobs";
  prg _ <- put m "_n_jobs" nj;
  prg cv <- get m "_cover";
  prg cover <- lift (as_ref cv);
  prg kv <- get m "_clustering";
  prg cl <- lift (as_ref kv);
  lift (Ok (X', y', cover, cl)).
(** learn.py:174-182: the rest. *)
Definition ma_finish (m : nat) (X : point) (g : graph) : prog unit :=
  prg _ <- put m "graph_" (VGraph g);
  set_n_features_in m X.
(** learn.py:147-182 [MapperAlgorithm.fit]. *)
Definition ma_fit (lim m : nat) (X : input) (y : option input) : prog unit :=
  prg v <- ma_prepare lim m X y;
  let '(X', y', cover, cl) := v in
  prg g <- p_mapper_graph lim X' y' cover cl;
  ma_finish m X' g.
End WithFit.

(** [clust.fit(xs)] of a clustering object: core.py:326-350 [FailSafeClustering],
    core.py:368-379 [TrivialClustering], MapperClustering used as a clustering, or
    a third-party class. MapperAlgorithm used as a clustering would build a graph
    and then fail for want of [labels_]; the model lets it fail at once. [lim] is
    the recursion limit. Logging is not modelled. *)
Fixpoint fit_clust (lim : nat) (r : nat) (xs : list point) : prog unit :=
  match lim with
  | 0 => lift (Err OutOfFuel)
  | S lim' =>
      prg b <- behaviour_at r;
      match b with
      | IsTrivialClustering => put r "labels_" (VLabels (map (fun _ => 0%Z) xs))
      | IsFailSafe =>
          prg v <- get r "clustering";
          prg w <- match v with VNone => prg t <- new (mkobj c_tclust []); lift (Ok (VRef t)) | _ => lift (Ok v) end;
          prg _ <- put r "_clustering" w;
          prg vb <- get r "verbose";
          prg _ <- put r "_verbose" vb;
          pcatch
            (prg w1 <- get r "_clustering";
             prg l1 <- lift (as_ref w1);
             prg _ <- fit_clust lim' l1 xs;
             prg w2 <- get r "_clustering";
             prg l2 <- lift (as_ref w2);
             prg lbls <- get l2 "labels_";
             put r "labels_" lbls)
            (fun e => match e with
                      | ValueError => put r "labels_" (VLabels (map (fun _ => 0%Z) xs))
                      | _ => lift (Err e)
                      end)
      | IsClustering fit =>
          prg ps <- params_at lim' r;
          prg lbls <- lift (fit (dget String.eqb ps) xs);
          put r "labels_" (VLabels lbls)
      | IsMapperClustering => mc_fit (fit_clust lim') lim' r (input_of_rows xs) None
      | _ => lift (Err AttributeError)
      end
  end.

(** The two estimators, with the recursion limit. *)
Definition mapper_clustering_fit (lim m : nat) (X : input) (y : option input) : prog unit :=
  mc_fit (fit_clust lim) lim m X y.
Definition mapper_algorithm_fit (lim m : nat) (X : input) (y : option input) : prog unit :=
  ma_fit (fit_clust lim) lim m X y.
(** learn.py:184-198 [fit_transform]. *)
Definition mapper_algorithm_fit_transform (lim m : nat) (X y : input) : prog value :=
  prg _ <- mapper_algorithm_fit lim m X (Some y);
  get m "graph_".
End Learn.
Arguments behaviour : clear implicits.
