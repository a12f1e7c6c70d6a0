(** self_sort_adapter. *)
From Coq Require Import List Bool Arith.
From Verif Require Import Model.Facade Spec.Facade Model.SelfSort Spec.SelfSort Proofs.Facade.
Import ListNotations.

Lemma self_sort_user_defined :
  forall (member_sort member_stable_sort : list fn -> bool) (accepts : form -> list fn -> bool) (args : list fn),
    let call := self_sort member_sort member_stable_sort accepts UserDefined args in
    (member_sort args = true -> call = Runs (SortMethod args)) /\
    (member_sort args = false -> member_stable_sort args = true -> call = Runs (StableSortMethod args)) /\
    (member_sort args = false -> member_stable_sort args = false -> accepts Iterable args = true -> call = Runs (AdaptedSorter Iterable args)) /\
    (member_sort args = false -> member_stable_sort args = false -> accepts Iterable args = false -> call = NotCallable) /\
    self_sort_iterators accepts args = if accepts Iterators args then Runs (AdaptedSorter Iterators args) else NotCallable.
Proof.
  intros ms mss acc args. unfold self_sort, select, has_sort_method, has_stable_sort_method.
  destruct (ms args), (mss args), (acc Iterable args); cbn; repeat split; intros; try discriminate; reflexivity.
Qed.
Lemma self_sort_lists :
  forall (member_sort member_stable_sort : list fn -> bool) (accepts : form -> list fn -> bool) (k : collection), k <> UserDefined ->
    let call := self_sort member_sort member_stable_sort accepts k in
    call [] = Runs (SortMethod []) /\
    (forall c, is_comparison c = true -> call [c] = Runs (SortMethod [c])) /\
    (forall c p, call [c; p] = if accepts Iterable [c; p] then Runs (AdaptedSorter Iterable [c; p]) else NotCallable).
Proof.
  intros ms mss acc k HK. destruct k; [| |contradiction]; (split; [reflexivity|split; [intros c Hc; unfold self_sort, select; cbn; now rewrite Hc|]]);
    intros c p; unfold self_sort, select; cbn; destruct (acc Iterable [c; p]); reflexivity.
Qed.
Lemma not_both : forall p, is_projection p = true -> is_comparison p = false.
Proof. intros []; simpl; congruence. Qed.
Lemma self_sort_list_projection :
  forall (member_sort member_stable_sort : list fn -> bool) (accepts adapted_is_stable : form -> list fn -> bool) (p : fn), is_projection p = true ->
    (forall k, k <> UserDefined -> self_sort member_sort member_stable_sort accepts k [p] = HardError) /\
    self_sort_is_stable member_sort member_stable_sort adapted_is_stable (Some StandardList) [p] = adapted_is_stable Iterable [p] /\
    (accepts Iterable [p] = true -> stable_self_sort member_stable_sort accepts StandardList [p] = Runs (AdaptedSorter Iterable [p])).
Proof.
  intros ms mss acc ais p Hp. split; [|split].
  - intros k HK. unfold self_sort, select. destruct k; [| |contradiction]; cbn; rewrite (not_both p Hp); reflexivity.
  - cbn. now rewrite Hp.
  - intros HA. unfold stable_self_sort, select. cbn. rewrite Hp, HA. reflexivity.
Qed.

Ltac case_call V :=
  destruct (valid_cases _ _ V) as [-> | [(f & -> & Hf & _) | (c & p & -> & _)]]; clear V.
Lemma one_function : forall f, In f [Less; RangesLess; Cmp; Identity; StdIdentity; Prj] -> is_comparison f = negb (is_projection f).
Proof. intros f H. cbn [In] in H. repeat (destruct H as [<- | H]; [reflexivity|]). contradiction. Qed.

Lemma self_sort_is_stable_sound :
  forall (member_sort member_stable_sort : list fn -> bool) (accepts adapted_is_stable : form -> list fn -> bool) (adapted_stable : form -> list fn -> Prop),
    (forall w args, adapted_is_stable w args = true -> adapted_stable w args) ->
    forall (k : option collection) (cpp20 : bool) (args : list fn) (a : action), valid_call cpp20 args = true ->
      match k with Some c => self_sort member_sort member_stable_sort accepts c args | None => self_sort_iterators accepts args end = Runs a ->
      self_sort_is_stable member_sort member_stable_sort adapted_is_stable k args = true -> known_stable adapted_stable k a.
Proof.
  intros ms mss acc ais ast HA k cpp20 args a V E S. destruct k as [[]|].
  - case_call V.
    + cbn in E. injection E as <-. reflexivity.
    + unfold self_sort, select in E. cbn in E. destruct (is_comparison f); [|discriminate]. injection E as <-. reflexivity.
    + unfold self_sort, select in E. cbn in E, S. destruct (acc Iterable [c; p]); [|discriminate]. injection E as <-. cbn. auto.
  - case_call V; try (cbn in S; discriminate). unfold self_sort, select in E. cbn in E, S. destruct (acc Iterable [c; p]); [|discriminate]. injection E as <-. cbn. auto.
  - unfold self_sort, select in E. cbn in E, S. destruct (ms args); [discriminate|]. destruct (mss args); cbn in E.
    + injection E as <-. exact I.
    + destruct (acc Iterable args); [|discriminate]. injection E as <-. cbn. auto.
  - unfold self_sort_iterators in E. destruct (acc Iterators args); [|discriminate]. injection E as <-. cbn in *. auto.
Qed.
Lemma self_sort_is_stable_complete :
  forall (member_sort member_stable_sort : list fn -> bool) (accepts adapted_is_stable : form -> list fn -> bool)
         (k : option collection) (cpp20 : bool) (args : list fn) (a : action), k <> Some OtherList -> valid_call cpp20 args = true ->
    match k with Some c => self_sort member_sort member_stable_sort accepts c args | None => self_sort_iterators accepts args end = Runs a ->
    known_stable (fun w args => adapted_is_stable w args = true) k a -> self_sort_is_stable member_sort member_stable_sort adapted_is_stable k args = true.
Proof.
  intros ms mss acc ais k cpp20 args a HK V E S. destruct k as [[]|]; [|congruence| |].
  - case_call V.
    + reflexivity.
    + unfold self_sort, select in E. cbn in E. cbn. rewrite (one_function f Hf) in E. destruct (is_projection f); [discriminate|reflexivity].
    + unfold self_sort, select in E. cbn in E. destruct (acc Iterable [c; p]); [|discriminate]. injection E as <-. exact S.
  - unfold self_sort, select in E. cbn in E. cbn. destruct (ms args); cbn in E. { injection E as <-. discriminate. }
    destruct (mss args); auto. cbn in E. destruct (acc Iterable args); [|discriminate]. injection E as <-. exact S.
  - unfold self_sort_iterators in E. destruct (acc Iterators args); [|discriminate]. injection E as <-. exact S.
Qed.

Lemma stable_self_sort_ok :
  forall (member_stable_sort : list fn -> bool) (accepts : form -> list fn -> bool) (adapted_stable : form -> list fn -> Prop),
    (forall w args, accepts w args = true -> adapted_stable w args) ->
    forall (k : collection) (cpp20 : bool) (args : list fn), valid_call cpp20 args = true ->
      let call := stable_self_sort member_stable_sort accepts k args in
      (forall a, call = Runs a -> known_stable adapted_stable (Some k) a /\ functions a = args) /\
      call <> HardError /\ call <> AmbiguousCall /\
      (accepts Iterable args = true -> call <> NotCallable) /\
      (k = UserDefined -> member_stable_sort args = true -> call = Runs (StableSortMethod args)) /\
      (k = StandardList -> args = [] \/ (exists c, args = [c] /\ is_comparison c = true) -> call = Runs (SortMethod args)) /\
      (k <> StandardList -> forall l, call <> Runs (SortMethod l)).
Proof.
  intros mss acc ast HA k cpp20 args V call. subst call. destruct k.
  - case_call V.
    + cbn. repeat split; try discriminate; try congruence; injection H as <-; reflexivity.
    + unfold stable_self_sort, select. cbn. rewrite (one_function f Hf). destruct (is_projection f) eqn:EP; cbn.
      * destruct (acc Iterable [f]) eqn:EA; cbn; (repeat split; try discriminate; try congruence).
        all: try (intros _ [C | (c & C & C2)]; [discriminate|]; injection C as ->; rewrite (not_both _ EP) in C2; discriminate).
        all: injection H as <-; cbn; auto.
      * repeat split; try discriminate; try congruence; injection H as <-; reflexivity.
    + unfold stable_self_sort, select. cbn. destruct (acc Iterable [c; p]) eqn:EA; cbn; (repeat split; try discriminate; try congruence).
      all: try (intros _ [C | (c' & C & C2)]; discriminate).
      all: injection H as <-; cbn; auto.
  - unfold stable_self_sort, select. cbn. destruct (acc Iterable args) eqn:EA; cbn; (repeat split; try discriminate; try congruence).
    all: injection H as <-; cbn; auto.
  - unfold stable_self_sort, select. cbn. destruct (mss args) eqn:EM; cbn.
    + repeat split; try discriminate; try congruence; injection H as <-; cbn; auto.
    + destruct (acc Iterable args) eqn:EA; cbn; (repeat split; try discriminate; try congruence); injection H as <-; cbn; auto.
Qed.
