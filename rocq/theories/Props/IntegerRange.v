(** C75: make_integer_range and make_index_range. *)
From Coq Require Import ZArith Bool List Lia.
From Verif Require Import Model.Counting Model.IntegerRange Spec.IntegerRange Proofs.IntegerRange.
Import ListNotations.
Local Open Scope Z_scope.

(** Different bounds, a step that is not negative (0 counts as 1), any integer type: the sequence goes from the beginning to the end, excluded, by the step,
    in the direction of the end.  The program is well-formed exactly if the distance is representable in the promoted type, and the size in the type. *)
Theorem C75_make_integer_range_exact :
  forall (t : int_type) (b e s : Z), 1 <= bits t -> fits t b = true -> fits t e = true -> 0 <= s -> b <> e ->
    let step := if s =? 0 then 1 else s in
    let size := (Z.abs (e - b) - 1) / step + 1 in
    if fits (promoted t) (Z.abs (e - b)) && fits t size
    then exists l, make_integer_range t b e s = Some l /\ is_range b e step l
    else make_integer_range t b e s = None.
Proof.
  intros t b e s HT Fb Fe Hs HN step size. change step with (actual_step s) in *. destruct (fits (promoted t) (Z.abs (e - b)) && fits t size) eqn:E.
  - apply andb_true_iff in E as [E1 E2]. now apply make_integer_range_ok.
  - now apply make_integer_range_not.
Qed.
Print Assumptions C75_make_integer_range_exact.

(** In particular with std::size_t, whatever the bounds and the step. *)
Theorem C75_make_index_range :
  forall b e s : Z, 0 <= b < 2 ^ 64 -> 0 <= e < 2 ^ 64 -> 0 <= s < 2 ^ 64 -> b <> e ->
    exists l, make_integer_range {| bits := 64; signed := false |} b e s = Some l /\ is_range b e (if s =? 0 then 1 else s) l.
Proof.
  intros b e s Hb He Hs HN. set (t := {| bits := 64; signed := false |}).
  assert (forall z, 0 <= z < 2 ^ 64 -> fits t z = true) as F. { intros z Hz. apply fits_iff. unfold type_min, type_max, t. cbn [signed bits]. lia. }
  pose proof (size_between b e s ltac:(lia) HN) as HZ.
  apply (make_integer_range_ok t); auto; cbn [t bits]; try lia; apply F; lia.
Qed.
Print Assumptions C75_make_index_range.

(** The same claim for equal bounds is false as soon as the step is more than 1: the sequence from 5 to 5 by steps of 2 holds 5... *)
Theorem C75_make_integer_range_empty_refuted :
  make_integer_range int32 5 5 2 = Some [5] /\ ~ is_range 5 5 2 [5] /\
  forall t b s, 2 <= bits t -> signed (promoted t) = true -> fits t b = true -> 2 <= s -> make_integer_range t b b s = Some [b].
Proof.
  split; [vm_compute; reflexivity|]. split. { intros H. specialize (H 0%nat). vm_compute in H. discriminate. }
  intros t b s HT HS Fb Hs. rewrite make_integer_range_same by (auto; lia). destruct (Z.leb_spec s 1); [lia|reflexivity].
Qed.
Print Assumptions C75_make_integer_range_empty_refuted.

(** ... and with std::size_t it has 2^63 elements, which no compiler accepts. *)
Theorem C75_make_index_range_empty_refuted :
  forall b, 0 <= b < 2 ^ 64 -> range_size {| bits := 64; signed := false |} b b 2 = Some (2 ^ 63).
Proof. intros b Hb. unfold range_size. rewrite Z.ltb_irrefl, Z.sub_diag. vm_compute. reflexivity. Qed.
Print Assumptions C75_make_index_range_empty_refuted.

(** Nor is there a range with a negative step, in whatever direction: it holds the beginning or nothing, or else the program is ill-formed. *)
Theorem C75_make_integer_range_negative_step_refuted :
  forall (t : int_type) (b e s : Z), signed t = true -> 2 <= bits t -> fits t b = true -> fits t e = true -> s < 0 -> b <> e ->
    make_integer_range t b e s =
    let distance := Z.abs (e - b) in
    if fits (promoted t) distance then
      if distance - 1 <? - s then Some [b] else if distance - 1 <? 2 * - s then Some [] else None
    else None.
Proof. intros t b e s ST HB Fb Fe Hs HN. apply make_integer_range_negative; auto. lia. Qed.
Print Assumptions C75_make_integer_range_negative_step_refuted.

Example C75_case :
  make_integer_range int32 3 10 3 = Some [3; 6; 9] /\ make_integer_range int32 5 1 2 = Some [5; 3] /\
  make_integer_range {| bits := 64; signed := false |} 2 6 0 = Some [2; 3; 4; 5] /\
  make_integer_range {| bits := 8; signed := true |} (-100) 100 1 = None /\ make_integer_range {| bits := 8; signed := true |} (-100) 100 50 = Some [-100; -50; 0; 50] /\
  make_integer_range int32 5 5 1 = Some [] /\ make_integer_range int32 10 0 (-2) = None /\ make_integer_range int32 10 0 (-5) = Some [] /\
  make_integer_range int32 10 0 (-10) = Some [10].
Proof. vm_compute. repeat split. Qed.
