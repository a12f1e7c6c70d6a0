(** What the properties of sorter_facade are made of. *)
From Coq Require Import List Bool Arith.
From Verif Require Import Spec.Order Model.Facade Spec.Facade Proofs.Facade.
Import ListNotations.

(** The order does not depend on which of the alternatives is called. *)
Lemma reachable_alternatives : forall args a, In a (reachable args) -> In a (alternatives args).
Proof. intros args a. unfold reachable. destruct (missing args); auto. intros H. now apply filter_In in H. Qed.
Lemma alternatives_order : forall A T (less_a cmp_a : A -> A -> bool) (less_t cmp_t : T -> T -> bool) prj cpp20 args a,
  valid_call cpp20 args = true -> In a (alternatives args) ->
  order_of less_a cmp_a less_t cmp_t prj a = order_of less_a cmp_a less_t cmp_t prj args /\ order_of less_a cmp_a less_t cmp_t prj args <> None.
Proof.
  intros A T less_a cmp_a less_t cmp_t prj cpp20 args a V H.
  destruct (valid_cases _ _ V) as [-> | [(f & -> & Hf & _) | (c & p & -> & Hc & Hp & _)]]; clear V.
  - cbn in H. destruct H as [<-|[]]. split; [reflexivity|discriminate].
  - cbn [In] in Hf. repeat (destruct Hf as [<- | Hf]); try contradiction; cbn in H; repeat (destruct H as [<- | H]); try contradiction; (split; [reflexivity|discriminate]).
  - cbn [In] in Hc, Hp. repeat (destruct Hc as [<- | Hc]); try contradiction; repeat (destruct Hp as [<- | Hp]); try contradiction;
      cbn in H; repeat (destruct H as [<- | H]); try contradiction; (split; [reflexivity|discriminate]).
Qed.

Lemma served_iff : forall inv w args, served inv w args = true <-> exists a w', In a (reachable args) /\ inv w' a = true /\ (w = Iterators -> w' = Iterators).
Proof.
  intros inv w args. unfold served. rewrite orb_true_iff, existsb_exists. split.
  - intros [(a & Ha & E) | H].
    + exists a, Iterators. auto.
    + destruct w; try discriminate. apply existsb_exists in H as (a & Ha & E). exists a, Iterable. repeat split; auto; discriminate.
  - intros (a & w' & Ha & E & Hw). destruct w' eqn:Ew.
    + left. eauto.
    + right. destruct w. { specialize (Hw eq_refl). discriminate. } apply existsb_exists. eauto.
Qed.


Lemma ambiguous_served : forall inv w args, ambiguous inv w args = true -> served inv w args = true.
Proof.
  intros inv w args H. apply served_iff. destruct w; try discriminate. destruct args as [|f [|g [|]]]; try discriminate; unfold ambiguous in H.
  - apply andb_true_iff in H as [H1 H]. apply orb_true_iff in H.
    assert (is_projection f = true) as P by (destruct f; try reflexivity; cbn in H1; discriminate).
    assert (In [Fused Less f] (reachable [f])) as R.
    { unfold reachable, alternatives, missing. destruct f; simpl; try discriminate; auto 6. }
    destruct H as [H|H]; [exists [Fused Less f], Iterable | exists [Fused Less f], Iterators]; repeat split; auto; discriminate.
  - apply andb_true_iff in H as [H _]. apply andb_true_iff in H as [H _]. apply andb_true_iff in H as [H1 H]. exists [f; g], Iterable.
    repeat split; auto; try discriminate. unfold reachable, alternatives, missing. destruct f; try discriminate; simpl; auto.
Qed.
Lemma call_outcome : forall inv cpp20 w args, valid_call cpp20 args = true ->
  (call inv cpp20 w args = AmbiguousCall <-> ambiguous inv w args = true) /\
  (call inv cpp20 w args = NotCallable <-> served inv w args = false).
Proof.
  intros inv cpp20 w args V. pose proof (call_sound inv cpp20 w args V) as S. pose proof (ambiguous_served inv w args) as AS.
  destruct (call inv cpp20 w args) as [| |w' a]; cbn [sound] in S.
  - split; split; intros; try discriminate; auto. specialize (AS H). congruence.
  - split; split; intros; try discriminate; auto. specialize (AS S). congruence.
  - destruct S as (S1 & S2 & S3 & S4 & _). split; split; intros; try discriminate; try congruence.
    assert (served inv w args = true) as C; [|congruence]. apply served_iff. eauto.
Qed.

Lemma missing_eq : forall args, args <> [RangesLess; Identity] -> missing args = false.
Proof. intros args H. unfold missing. destruct args as [|[] [|[] [|]]]; auto. contradiction. Qed.
Lemma reachable_eq : forall args, args <> [RangesLess; Identity] -> reachable args = alternatives args.
Proof. intros args H. unfold reachable. now rewrite missing_eq. Qed.
Lemma reachable_self : forall args, In args (reachable args).
Proof. intros args. unfold reachable. destruct (missing args) eqn:E; [|simpl; auto]. apply filter_In. split; [simpl; auto|]. now destruct args. Qed.
Lemma ambiguous_only : forall inv args, ambiguous inv Iterable args = true -> exists a, inv Iterable a = true /\ inv Iterators a = false.
Proof.
  intros inv args H. destruct args as [|f [|g [|]]]; try discriminate; unfold ambiguous in H; rewrite !andb_true_iff, ?orb_true_iff, !negb_true_iff in H.
  - destruct H as (((((_ & _) & [H|H]) & H4) & H5) & _); eauto.
  - destruct H as (((_ & H2) & H3) & _); eauto.
Qed.
