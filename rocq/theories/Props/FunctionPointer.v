(** C89: the conversions of a sorter to function pointers. *)
From Coq Require Import List Bool Arith Lia.
From Verif Require Import Model.FunctionPointer Proofs.FunctionPointer.
Import ListNotations.

(** The parameters of the documentation (docs/Sorter-facade.md:35-44): a collection by reference, or two iterators, then at most two functions. *)
Definition a_collection (ts : list type) : Prop :=
  exists n fs, (ts = LvalueReference n :: fs \/ ts = RvalueReference n :: fs) /\ length fs <= 2.
Definition two_iterators (ts : list type) : Prop := exists t fs, ts = t :: t :: fs /\ length fs <= 2.

(** There are conversions for these parameters and no others, and none if the sorter implementation is not empty. *)
Theorem C89_conversions_exist :
  forall (empty default_constructible : bool) (p : pointer),
    convert empty default_constructible p <> NoConversion <-> empty = true /\ (a_collection (args p) \/ two_iterators (args p)).
Proof.
  intros [] d [r ts]; [|split; [intros H; now elim H|intros [H _]; discriminate]].
  rewrite convert_cases. simpl args. unfold a_collection, two_iterators. split.
  - intros H. split; auto.
    destruct ts as [|t [|u us]]; [now elim H| |].
    + destruct t as [n|n|n]; [now elim H| |]; left; exists n, []; simpl; auto.
    + destruct (type_eqb u t) eqn:E.
      * apply type_eqb_eq in E; subst u. right. exists t, us. split; auto. destruct us as [|? [|? [|? us]]]; simpl; try lia. now elim H.
      * left. destruct us as [|v [|w us]]; destruct t as [n|n|n];
          try (now elim H); try (exists n; eexists; split; [eauto|simpl; lia]);
          destruct us; cbn -[type_eqb] in H; now elim H.
  - intros [_ [(n & fs & [-> | ->] & HL) | (t & fs & -> & HL)]] H;
      destruct fs as [|f [|g [|h fs]]]; simpl in HL; try lia; cbn -[type_eqb] in H;
      rewrite ?(proj2 (type_eqb_eq _ _) eq_refl) in H;
      repeat match type of H with context [if ?b then _ else _] => destruct b end; try discriminate;
      repeat match type of H with context [match ?t with Object _ => _ | LvalueReference _ => _ | RvalueReference _ => _ end] => destruct t end;
      repeat match type of H with context [if ?b then _ else _] => destruct b end; discriminate.
Qed.
Print Assumptions C89_conversions_exist.

(** The pointer calls the sorter with its own arguments, whatever the conversion, and discards the result only if it returns void. *)
Theorem C89_conversions_call :
  forall (empty default_constructible : bool) (p : pointer) (arguments : list type) (returns : bool),
    convert empty default_constructible p = Invoke arguments returns ->
    empty = true /\ default_constructible = true /\ arguments = args p /\ (returns = false <-> ret p = Void).
Proof.
  intros [] d [r ts] a b H; [|discriminate]. rewrite convert_cases in H. simpl args; simpl ret.
  destruct d; [|exfalso; destruct ts as [|t [|u [|v [|w [|x l]]]]]; try discriminate; destruct t; try discriminate;
    cbn -[type_eqb] in H; destruct (type_eqb _ _); discriminate].
  assert (E : Invoke ts (match r with Void => false | Result _ => true end) = Invoke a b).
  { destruct ts as [|t [|u [|v [|w [|x l]]]]]; try discriminate; destruct t; try discriminate; auto;
    cbn -[type_eqb] in H; destruct (type_eqb _ _); auto; discriminate. }
  injection E as <- <-. repeat split; auto; destruct r; auto; discriminate.
Qed.
Print Assumptions C89_conversions_call.

(** "it allows to transform a sorter into a function pointer corresponding to any valid overload of operator()" (docs/Sorter-facade.md:48):
    partial, the first two parameters cannot be references of the same type, unless two functions follow. *)
Theorem C89_conversions_partial :
  forall p : pointer,
    a_collection (args p) \/ two_iterators (args p) ->
    (forall t fs, args p = t :: t :: fs -> (exists n, t = Object n) \/ length fs = 2) ->
    exists returns, convert true true p = Invoke (args p) returns.
Proof.
  intros [r ts] H N. simpl args in *. exists (match r with Void => false | Result _ => true end). rewrite convert_cases.
  destruct H as [(n & fs & E & HL) | (t & fs & -> & HL)].
  - destruct fs as [|f [|g [|h fs]]]; simpl in HL; try lia; destruct E as [-> | ->]; try reflexivity;
      cbn -[type_eqb]; destruct (type_eqb f _) eqn:E; auto; apply type_eqb_eq in E; subst f;
      destruct (N _ _ eq_refl) as [[m E] | E]; discriminate.
  - destruct fs as [|f [|g [|h fs]]]; simpl in HL; try lia; cbn -[type_eqb]; rewrite (proj2 (type_eqb_eq t t) eq_refl); auto;
      destruct (N _ _ eq_refl) as [[m ->] | E]; auto; discriminate.
Qed.
Print Assumptions C89_conversions_partial.

(** Else the conversions of a collection and a function, and of two iterators, are ambiguous: void( * )(const It&, const It&). *)
Theorem C89_references_to_iterators_refuted :
  forall (default_constructible : bool) (r : result) (n : nat) (fs : list type),
    length fs <= 1 ->
    convert true default_constructible (Pointer r (LvalueReference n :: LvalueReference n :: fs)) = AmbiguousConversion /\
    convert true default_constructible (Pointer r (RvalueReference n :: RvalueReference n :: fs)) = AmbiguousConversion.
Proof.
  intros d r n [|f [|g fs]] HL; simpl in HL; try lia; rewrite !convert_cases; cbn -[type_eqb];
    now rewrite !(proj2 (type_eqb_eq _ _) eq_refl).
Qed.
Print Assumptions C89_references_to_iterators_refuted.

(** "As long as the sorter implementation it wraps is an empty and default-constructible type" (docs/Sorter-facade.md:33): the conversions of an
    empty one that is not default-constructible exist, and are an error when they are used. *)
Theorem C89_default_constructible_refuted :
  forall (r : result) (n : nat), convert true false (Pointer r [LvalueReference n]) = HardError /\ convert true false (Pointer r [Object n; Object n]) = HardError.
Proof. intros r n. rewrite !convert_cases. cbn -[type_eqb]. now rewrite (proj2 (type_eqb_eq _ _) eq_refl). Qed.
Print Assumptions C89_default_constructible_refuted.

(** A collection and a comparison to void; two pointers, a comparison and a projection; by reference; a collection by value; three functions. *)
Example C89_case :
  convert true true (Pointer Void [LvalueReference 1; Object 2]) = Invoke [LvalueReference 1; Object 2] false /\
  convert true true (Pointer (Result 5) [Object 3; Object 3; Object 2; Object 4]) = Invoke [Object 3; Object 3; Object 2; Object 4] true /\
  convert true true (Pointer Void [LvalueReference 3; LvalueReference 3; Object 2]) = AmbiguousConversion /\
  convert true true (Pointer Void [Object 1]) = NoConversion /\
  convert true true (Pointer Void [LvalueReference 1; Object 2; Object 2; Object 4]) = NoConversion /\
  convert false true (Pointer Void [LvalueReference 1]) = NoConversion /\
  a_collection [LvalueReference 1; Object 2] /\ two_iterators [Object 3; Object 3; Object 2; Object 4].
Proof.
  repeat split; [exists 1, [Object 2]|exists (Object 3), [Object 2; Object 4]]; simpl; auto.
Qed.
