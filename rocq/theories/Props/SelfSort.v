(** C76: self_sort_adapter, alone and in stable_adapter. *)
From Coq Require Import List Bool Arith.
From Verif Require Import Model.Facade Spec.Facade Model.SelfSort Spec.SelfSort Proofs.SelfSort.
Import ListNotations.

(** A class with methods, whatever they accept, and any adapted sorter: the documented choice, with the arguments of the call; never ambiguous. *)
Theorem C76_self_sort_choice :
  forall (member_sort member_stable_sort : list fn -> bool) (accepts : form -> list fn -> bool) (args : list fn),
    let call := self_sort member_sort member_stable_sort accepts UserDefined args in
    (member_sort args = true -> call = Runs (SortMethod args)) /\
    (member_sort args = false -> member_stable_sort args = true -> call = Runs (StableSortMethod args)) /\
    (member_sort args = false -> member_stable_sort args = false -> accepts Iterable args = true -> call = Runs (AdaptedSorter Iterable args)) /\
    (member_sort args = false -> member_stable_sort args = false -> accepts Iterable args = false -> call = NotCallable) /\
    self_sort_iterators accepts args = if accepts Iterators args then Runs (AdaptedSorter Iterators args) else NotCallable.
Proof. exact self_sort_user_defined. Qed.
Print Assumptions C76_self_sort_choice.

(** The lists of the standard library: their own sort, without function or with a comparison; the adapted sorter with a comparison and a projection. *)
Theorem C76_self_sort_lists :
  forall (member_sort member_stable_sort : list fn -> bool) (accepts : form -> list fn -> bool) (k : collection), k <> UserDefined ->
    let call := self_sort member_sort member_stable_sort accepts k in
    call [] = Runs (SortMethod []) /\
    (forall c, is_comparison c = true -> call [c] = Runs (SortMethod [c])) /\
    (forall c p, call [c; p] = if accepts Iterable [c; p] then Runs (AdaptedSorter Iterable [c; p]) else NotCallable).
Proof. exact self_sort_lists. Qed.
Print Assumptions C76_self_sort_lists.

(** With a projection alone the documentation promises the adapted sorter, since the list has no suitable method; is_stable agrees, and so does stable_adapter.
    The program does not compile, whatever the adapted sorter accepts: the method is found, because its parameter is not constrained. *)
Theorem C76_self_sort_list_projection_refuted :
  forall (member_sort member_stable_sort : list fn -> bool) (accepts adapted_is_stable : form -> list fn -> bool) (p : fn), is_projection p = true ->
    (forall k, k <> UserDefined -> self_sort member_sort member_stable_sort accepts k [p] = HardError) /\
    self_sort_is_stable member_sort member_stable_sort adapted_is_stable (Some StandardList) [p] = adapted_is_stable Iterable [p] /\
    (accepts Iterable [p] = true -> stable_self_sort member_stable_sort accepts StandardList [p] = Runs (AdaptedSorter Iterable [p])).
Proof. exact self_sort_list_projection. Qed.
Print Assumptions C76_self_sort_list_projection_refuted.

(** is_stable does not lie, if it does not about the adapted sorter. *)
Theorem C76_self_sort_is_stable :
  forall (member_sort member_stable_sort : list fn -> bool) (accepts adapted_is_stable : form -> list fn -> bool) (adapted_stable : form -> list fn -> Prop),
    (forall w args, adapted_is_stable w args = true -> adapted_stable w args) ->
    forall (k : option collection) (cpp20 : bool) (args : list fn) (a : action), valid_call cpp20 args = true ->
      match k with Some c => self_sort member_sort member_stable_sort accepts c args | None => self_sort_iterators accepts args end = Runs a ->
      self_sort_is_stable member_sort member_stable_sort adapted_is_stable k args = true -> known_stable adapted_stable k a.
Proof. exact self_sort_is_stable_sound. Qed.
Print Assumptions C76_self_sort_is_stable.

(** Nor does it say less than what is known, except for the lists with another allocator: docs/Sorter-adapters.md, "A special case considers valid calls to
    std::list::sort and std::forward_list::sort to be stable", is false for them. *)
Theorem C76_self_sort_is_stable_complete :
  forall (member_sort member_stable_sort : list fn -> bool) (accepts adapted_is_stable : form -> list fn -> bool)
         (k : option collection) (cpp20 : bool) (args : list fn) (a : action), k <> Some OtherList -> valid_call cpp20 args = true ->
    match k with Some c => self_sort member_sort member_stable_sort accepts c args | None => self_sort_iterators accepts args end = Runs a ->
    known_stable (fun w args => adapted_is_stable w args = true) k a -> self_sort_is_stable member_sort member_stable_sort adapted_is_stable k args = true.
Proof. exact self_sort_is_stable_complete. Qed.
Print Assumptions C76_self_sort_is_stable_complete.

Theorem C76_self_sort_other_list_refuted :
  forall (member_sort member_stable_sort : list fn -> bool) (accepts adapted_is_stable : form -> list fn -> bool),
    self_sort member_sort member_stable_sort accepts OtherList [] = Runs (SortMethod []) /\
    self_sort_is_stable member_sort member_stable_sort adapted_is_stable (Some OtherList) [] = false.
Proof. intros. split; reflexivity. Qed.
Print Assumptions C76_self_sort_other_list_refuted.

(** stable_adapter<self_sort_adapter>, with an adapted sorter that stable_adapter made stable: every call is stable, with the arguments of the call; it is
    accepted if the adapted sorter accepts it; a method stable_sort comes first, and a method called sort is used for the standard lists only. *)
Theorem C76_stable_self_sort :
  forall (member_stable_sort : list fn -> bool) (accepts : form -> list fn -> bool) (adapted_stable : form -> list fn -> Prop),
    (forall w args, accepts w args = true -> adapted_stable w args) ->
    forall (k : collection) (cpp20 : bool) (args : list fn), valid_call cpp20 args = true ->
      let call := stable_self_sort member_stable_sort accepts k args in
      (forall a, call = Runs a -> known_stable adapted_stable (Some k) a /\ functions a = args) /\
      call <> HardError /\ call <> AmbiguousCall /\
      (accepts Iterable args = true -> call <> NotCallable) /\
      (k = UserDefined -> member_stable_sort args = true -> call = Runs (StableSortMethod args)) /\
      (k = StandardList -> args = [] \/ (exists c, args = [c] /\ is_comparison c = true) -> call = Runs (SortMethod args)) /\
      (k <> StandardList -> forall l, call <> Runs (SortMethod l)).
Proof. exact stable_self_sort_ok. Qed.
Print Assumptions C76_stable_self_sort.

(** A class with a method sort that takes a comparison or nothing, and a method stable_sort that takes nothing. *)
Example C76_case :
  let member_sort := fun args => match args with [] => true | [c] => is_comparison c | _ => false end in
  let member_stable_sort := fun args : list fn => match args with [] => true | _ => false end in
  let accepts := single_overload true in
  let accepts_all := fun (_ : form) => accepts Iterators in
  map (self_sort member_sort member_stable_sort accepts_all UserDefined) [[]; [Cmp]; [Cmp; Prj]] =
    [Runs (SortMethod []); Runs (SortMethod [Cmp]); Runs (AdaptedSorter Iterable [Cmp; Prj])] /\
  map (stable_self_sort member_stable_sort accepts_all UserDefined) [[]; [Cmp]; [Cmp; Prj]] =
    [Runs (StableSortMethod []); Runs (AdaptedSorter Iterable [Cmp]); Runs (AdaptedSorter Iterable [Cmp; Prj])] /\
  map (stable_self_sort member_stable_sort accepts_all StandardList) [[]; [Cmp]; [Cmp; Prj]] =
    [Runs (SortMethod []); Runs (SortMethod [Cmp]); Runs (AdaptedSorter Iterable [Cmp; Prj])].
Proof. repeat split. Qed.
