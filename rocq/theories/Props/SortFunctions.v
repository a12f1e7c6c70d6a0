(** C83: the overloads of cppsort::sort and cppsort::stable_sort. *)
From Coq Require Import List Bool.
From Verif Require Import Model.SortFunctions Spec.SortFunctions Proofs.SortFunctions.
Import ListNotations.

(** Whatever the value categories of the arguments. *)
Theorem C83_sort :
  forall (accepts : bool -> list fn -> bool) (s : option value_category) (o : object) (fs : list (fn * value_category)),
    proper fs -> sort accepts (arguments s o fs) = expected accepts s o fs.
Proof. exact sort_ok. Qed.
Print Assumptions C83_sort.

(** Missing: a sorter that is not a constant lvalue with two iterators alone; two iterators and a generic comparison that cannot be asked whether it takes
    iterators. *)
Theorem C83_stable_sort_partial :
  forall (accepts : bool -> list fn -> bool) (s : option value_category) (o : object) (fs : list (fn * value_category)),
    proper fs ->
    ~ (is_collection o = false /\ fs = [] /\ (s = Some Lvalue \/ s = Some Rvalue)) ->
    ~ (is_collection o = false /\ s = None /\ exists v, fs = [(Comparison Error, v)]) ->
    stable_sort accepts (arguments s o fs) = expected accepts s o fs.
Proof.
  intros accepts s o fs HF H1 H2. rewrite stable_sort_eq by auto.
  destruct s as [[]|], o as [v|v w], fs as [|[f u] [|g l]]; try reflexivity.
  - exfalso. apply H1. auto.
  - exfalso. apply H1. auto.
  - destruct f as [[]|]; try reflexivity. exfalso. apply H2. eauto.
Qed.
Print Assumptions C83_stable_sort_partial.

(** stable_sort(merge_sorter{}, first, last) does not compile, whatever the sorter: the overload for a collection, a comparison and a projection takes the
    sorter for the collection, and it is preferred because its first parameter is a forwarding reference. *)
Theorem C83_stable_sort_sorter_iterators_refuted :
  forall (accepts : bool -> list fn -> bool) (s v w : value_category), s <> ConstLvalue ->
    stable_sort accepts (arguments (Some s) (APair v w) []) = CompileError /\
    (accepts false [] = true -> expected accepts (Some s) (APair v w) [] <> CompileError).
Proof.
  intros accepts s v w HS. split.
  - rewrite stable_sort_eq by exact I. destruct s; auto. now destruct HS.
  - intros HA. simpl. rewrite HA. discriminate.
Qed.
Print Assumptions C83_stable_sort_sorter_iterators_refuted.

(** stable_sort(first, last, comparison) asks whether the comparison is a sorter, that is, whether it can be called with the iterators. *)
Theorem C83_stable_sort_generic_comparison_refuted :
  forall (accepts : bool -> list fn -> bool) (v w u : value_category),
    stable_sort accepts (arguments None (APair v w) [(Comparison Error, u)]) = CompileError /\
    expected accepts None (APair v w) [(Comparison Error, u)] <> CompileError.
Proof. intros accepts v w u. split; [|discriminate]. rewrite stable_sort_eq by exact I. reflexivity. Qed.
Print Assumptions C83_stable_sort_generic_comparison_refuted.

(** A call that compiles does what is expected. *)
Theorem C83_stable_sort_sound :
  forall (accepts : bool -> list fn -> bool) (s : option value_category) (o : object) (fs : list (fn * value_category)) (c : callee) (args : list type),
    proper fs -> stable_sort accepts (arguments s o fs) = Runs c args -> expected accepts s o fs = Runs c args.
Proof.
  intros accepts s o fs c args HF. rewrite stable_sort_eq by auto.
  destruct s as [[]|], o as [v|v w], fs as [|[f u] [|g l]]; auto; try discriminate. destruct (breaks f); [discriminate|auto].
Qed.
Print Assumptions C83_stable_sort_sound.

(** Overload resolution: the overload that is selected is better than every other one, and there is none such if none is selected. *)
Theorem C83_best_overload :
  forall (args : list argument) (l : list overload),
    match best args l [] with
    | Some o => exists l1 l2, l = l1 ++ o :: l2 /\ forall o', In o' (l1 ++ l2) -> better args (parameters o) (parameters o') = true
    | None => forall l1 o l2, l = l1 ++ o :: l2 -> exists o', In o' (l1 ++ l2) /\ better args (parameters o) (parameters o') = false
    end.
Proof.
  intros args l. destruct (best args l []) as [o|] eqn:E.
  - now apply best_some in E.
  - intros l1 o l2 HL. pose proof (best_none _ _ _ E l1 o l2 HL) as HN. simpl in HN.
    destruct (forallb (fun o' => better args (parameters o) (parameters o')) (l1 ++ l2)) eqn:F.
    + exfalso. apply HN. rewrite forallb_forall in F. exact F.
    + clear - F. induction (l1 ++ l2) as [|a l IH]; [discriminate|]. simpl in F. apply andb_false_iff in F as [F|F].
      * exists a. split; [now left|auto].
      * destruct (IH F) as (o' & HI & HO). exists o'. split; [now right|auto].
Qed.
Print Assumptions C83_best_overload.

(** A sorter that takes iterators, with a comparison, a projection or both. *)
Example C83_case :
  let accepts := fun (collection : bool) (_ : list fn) => negb collection in
  let less := (Comparison Yes, Rvalue) in let proj := (Projection, Lvalue) in
  proper [less; proj] /\
  sort accepts (arguments (Some Rvalue) (APair Lvalue Rvalue) [less; proj]) = Runs GivenSorter [Iterator; Iterator; Fun (Comparison Yes); Fun Projection] /\
  sort accepts (arguments (Some Rvalue) (APair Lvalue Rvalue) []) = Runs GivenSorter [Iterator; Iterator] /\
  sort accepts (arguments (Some Rvalue) (ACollection Lvalue) [less]) = CompileError /\
  sort accepts (arguments None (ACollection Lvalue) [proj]) = Runs DefaultSorter [Iterable; Fun Projection] /\
  stable_sort accepts (arguments (Some ConstLvalue) (APair Lvalue Lvalue) []) = Runs GivenSorter [Iterator; Iterator] /\
  stable_sort accepts (arguments None (APair Lvalue Lvalue) [less]) = Runs DefaultSorter [Iterator; Iterator; Fun (Comparison Yes)].
Proof. cbv zeta. split; [split; [now exists Yes|reflexivity]|]. repeat split. Qed.
