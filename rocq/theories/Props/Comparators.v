(** C52-C56: comparators. *)
From Coq Require Import List Arith QArith Bool.
From Verif Require Import Spec.Order Spec.Strings Model.Comparators Proofs.Comparators Proofs.Natural.
Import ListNotations.
Local Open Scope nat_scope.

Theorem C52_total_less_strict_weak_order : strict_weak_order total_less /\ strict_weak_order total_greater.
Proof. split; [exact total_less_swo|]. exact (swo_ext _ _ _ (fun x y => eq_sym (total_greater_conv x y)) (swo_conv _ _ total_less_swo)). Qed.
Print Assumptions C52_total_less_strict_weak_order.

Theorem C52_total_greater_converse : forall x y, total_greater x y = total_less y x.
Proof. exact total_greater_conv. Qed.
Print Assumptions C52_total_greater_converse.

(** Negative NaNs, then the numbers in order with -0.0 before +0.0, then the positive NaNs. *)
Theorem C52_total_less_meaning : forall x y, total_less x y = true <->
  (isnan x = true /\ signbit x = true /\ ~ (isnan y = true /\ signbit y = true)) \/
  (isnan y = true /\ signbit y = false /\ ~ (isnan x = true /\ signbit x = false)) \/
  (isnan x = false /\ isnan y = false /\ (fp_lt x y = true \/ (x = Zero true /\ y = Zero false))).
Proof. exact total_less_meaning. Qed.
Print Assumptions C52_total_less_meaning.

(** The built-in comparison used above orders finite numbers by the number they represent. *)
Theorem C52_builtin_less_meaning : forall x y, isfinite x = true -> isfinite y = true ->
  (fp_lt x y = true <-> (fp_value x < fp_value y)%Q).
Proof. exact fp_lt_finite. Qed.
Print Assumptions C52_builtin_less_meaning.

Example C52_case :
  total_less (Nan true 5) (Infinite true) = true /\ total_less (Zero true) (Zero false) = true /\
  total_less (Finite true 3 2) (Finite false 1 (-4)) = true /\ total_less (Finite false 3 (-1)) (Finite false 1 1) = true /\
  total_greater (Nan false 1) (Infinite false) = true.
Proof. repeat split; reflexivity. Qed.

Theorem C53_weak_less_strict_weak_order : strict_weak_order weak_less /\ strict_weak_order weak_greater.
Proof. split; [exact weak_less_swo|]. exact (swo_ext _ _ _ (fun x y => eq_sym (weak_greater_conv x y)) (swo_conv _ _ weak_less_swo)). Qed.
Print Assumptions C53_weak_less_strict_weak_order.

Theorem C53_weak_greater_converse : forall x y, weak_greater x y = weak_less y x.
Proof. exact weak_greater_conv. Qed.
Print Assumptions C53_weak_greater_converse.

Theorem C53_weak_less_meaning : forall x y, weak_less x y = true <->
  (isnan x = true /\ signbit x = true /\ ~ (isnan y = true /\ signbit y = true)) \/
  (isnan y = true /\ signbit y = false /\ ~ (isnan x = true /\ signbit x = false)) \/
  (isnan x = false /\ isnan y = false /\ fp_lt x y = true).
Proof. exact weak_less_meaning. Qed.
Print Assumptions C53_weak_less_meaning.

(** partial_less is a strict partial order, but not a strict weak order: NaNs are unordered with everything. *)
Theorem C53_partial_less_strict_partial_order : (forall x, partial_less x x = false) /\
  (forall x y z, partial_less x y = true -> partial_less y z = true -> partial_less x z = true) /\
  (forall x y, partial_greater x y = partial_less y x).
Proof. destruct partial_less_strict as [H1 H2]. split; [exact H1|]. split; [exact H2|]. exact partial_greater_conv. Qed.
Print Assumptions C53_partial_less_strict_partial_order.

Theorem C53_partial_less_weak_order_refuted : ~ strict_weak_order partial_less.
Proof.
  intros H. destruct (swo_incomp _ H (Infinite true) (Nan true 0) (Infinite false)); try reflexivity. discriminate.
Qed.
Print Assumptions C53_partial_less_weak_order_refuted.

Example C53_case : weak_less (Zero true) (Zero false) = false /\ weak_less (Zero false) (Zero true) = false /\
  weak_less (Nan true 7) (Nan true 8) = false /\ weak_less (Infinite false) (Nan false 0) = true.
Proof. repeat split; reflexivity. Qed.

(** The full claim: no read past the end, and the natural order ([reads]: digit runs are numbers). *)
Definition natural_less_claim : Prop := forall s1 s2 k1 k2, reads s1 k1 -> reads s2 k2 ->
  exists b, natural_less s1 s2 = Answer b /\ (b = true <-> lex token_lt k1 k2).

(** Strings whose digits, if any, are all at the end. *)
Theorem C54_natural_less_trailing_digits_partial : forall p1 p2 d1 d2 k1 k2,
  Forall (fun c => ~ digit c) p1 -> Forall (fun c => ~ digit c) p2 -> Forall digit d1 -> Forall digit d2 ->
  reads (p1 ++ d1) k1 -> reads (p2 ++ d2) k2 ->
  exists b, natural_less (p1 ++ d1) (p2 ++ d2) = Answer b /\ (b = true <-> lex token_lt k1 k2).
Proof. exact natural_less_trailing. Qed.
Print Assumptions C54_natural_less_trailing_digits_partial.

Theorem C54_natural_less_terminates : forall s1 s2, natural_less s1 s2 <> OutOfFuel.
Proof. exact natural_less_fuel. Qed.
Print Assumptions C54_natural_less_terminates.

(** "1a" against "1": the loop of natural_less.h:62 runs to the end of the first string and reads past the end of the second. *)
Theorem C54_natural_less_in_bounds_refuted : ~ (forall s1 s2, natural_less s1 s2 <> PastEnd).
Proof. intros H. apply (H [49; 97] [49]). reflexivity. Qed.
Print Assumptions C54_natural_less_in_bounds_refuted.

(** "1a2" and "1a10", read as 1 a 2 and 1 a 10, are not ordered by the last number. *)
Theorem C54_natural_less_claim_refuted : ~ natural_less_claim.
Proof.
  intros H. destruct (H [49; 97; 50] [49; 97; 49; 48] [Num 1; Char 97; Num 2] [Num 1; Char 97; Num 10]) as (b & E & Hb).
  - apply (reads_num [49] [97; 50]); [discriminate|repeat constructor| |].
    + intros c t [= <- <-]. intros [_ D]. apply Nat.leb_le in D. discriminate D.
    + constructor. { intros [_ D]. apply Nat.leb_le in D. discriminate D. }
      apply (reads_num [50] []); [discriminate|repeat constructor|discriminate|constructor].
  - apply (reads_num [49] [97; 49; 48]); [discriminate|repeat constructor| |].
    + intros c t [= <- <-]. intros [_ D]. apply Nat.leb_le in D. discriminate D.
    + constructor. { intros [_ D]. apply Nat.leb_le in D. discriminate D. }
      apply (reads_num [49; 48] []); [discriminate|repeat constructor|discriminate|constructor].
  - injection E as <-. assert (T : false = true); [|discriminate T]. apply Hb.
    apply lex_eq, lex_eq, lex_lt. simpl. repeat constructor.
Qed.
Print Assumptions C54_natural_less_claim_refuted.

(** "file9" and "file10". *)
Example C54_case : natural_less [102; 105; 108; 101; 57] [102; 105; 108; 101; 49; 48] = Answer true /\
  natural_less [102; 105; 108; 101; 49; 48] [102; 105; 108; 101; 57] = Answer false.
Proof. split; reflexivity. Qed.

Theorem C55_case_insensitive_less_strict_weak_order : forall tolower, strict_weak_order (case_insensitive_less tolower).
Proof. exact case_insensitive_less_swo. Qed.
Print Assumptions C55_case_insensitive_less_strict_weak_order.

Theorem C55_case_insensitive_less_equivalence : forall tolower s t,
  (case_insensitive_less tolower s t = false /\ case_insensitive_less tolower t s = false) <->
  map tolower s = map tolower t.
Proof. exact case_insensitive_less_equiv. Qed.
Print Assumptions C55_case_insensitive_less_equivalence.

Theorem C55_case_insensitive_less_lexicographic : forall tolower s t,
  case_insensitive_less tolower s t = true <-> lex lt (map tolower s) (map tolower t).
Proof. exact case_insensitive_less_lex. Qed.
Print Assumptions C55_case_insensitive_less_lexicographic.

(** "aB" and "AC". *)
Example C55_case : case_insensitive_less (fun c => if (65 <=? c) && (c <=? 90) then c + 32 else c) [97; 66] [65; 67] = true.
Proof. reflexivity. Qed.

Theorem C56_flip_meaning : forall T (f : fobj T) x y, call (flip f) x y = call f y x.
Proof. exact call_flip. Qed.
Print Assumptions C56_flip_meaning.

Theorem C56_not_fn_meaning : forall T (f : fobj T) x y, call (not_fn f) x y = negb (call f x y).
Proof. exact call_not_fn. Qed.
Print Assumptions C56_not_fn_meaning.

Theorem C56_projection_compare_meaning : forall A T (f : fobj T) (p : projection A T) x y,
  call (make_projection_compare f p) x y = call f (project p x) (project p y).
Proof. exact call_projection_compare. Qed.
Print Assumptions C56_projection_compare_meaning.

Theorem C56_involutions : forall T (f : fobj T) x y,
  call (flip (flip f)) x y = call f x y /\ call (not_fn (not_fn f)) x y = call f x y /\
  call (flip (not_fn f)) x y = call (not_fn (flip f)) x y.
Proof.
  intros. rewrite !call_flip, !call_not_fn, !call_flip. split; [reflexivity|]. split; [apply negb_involutive|reflexivity].
Qed.
Print Assumptions C56_involutions.

(** Flipping or negating a wrapper gives back the very object. *)
Theorem C56_unwrap : forall T (f : fobj T), flip (FlipT f) = f /\ not_fn (NotT f) = f /\ flip (NotT (FlipT f)) = NotT f /\ not_fn (FlipT (NotT f)) = FlipT f.
Proof. intros. repeat split; reflexivity. Qed.
Print Assumptions C56_unwrap.

Theorem C56_strict_weak_orders : forall A T (f : fobj T) (p : projection A T), strict_weak_order (call f) ->
  strict_weak_order (call (flip f)) /\ strict_weak_order (call (make_projection_compare f p)).
Proof. intros. split; [now apply swo_flip_fn|now apply swo_projection_compare]. Qed.
Print Assumptions C56_strict_weak_orders.

Example C56_case : call (flip (not_fn (flip (make_projection_compare (Fun Nat.ltb) (Proj (@fst nat nat)))))) (1, 5) (2, 0) = false /\
  call (flip (not_fn (flip (make_projection_compare (Fun Nat.ltb) (Proj (@fst nat nat)))))) (2, 0) (1, 5) = true.
Proof. split; reflexivity. Qed.
