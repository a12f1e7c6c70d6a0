(** Merge-insertion sort: number of comparisons, sizes of the batches. *)
From Coq Require Import List Arith Lia Bool.
From Verif Require Import Lang.Mem Spec.Comparisons Model.MergeInsertion.
Import ListNotations.

(** The other answer to one question. *)
Definition flip_at (q : nat * nat) (x y : nat) : bool := if (x =? fst q) && (y =? snd q) then negb (x <? y) else x <? y.

Definition input : list nat := [3; 2; 4; 8; 1; 6; 7; 5; 0].
Definition questions : list (nat * nat) :=
  [(2, 3); (8, 4); (6, 1); (5, 7); (8, 3); (7, 6); (7, 8); (3, 7); (3, 6); (5, 3); (5, 6); (1, 3); (1, 2); (4, 5); (4, 2); (4, 3); (0, 5); (0, 3); (0, 2); (0, 1)].
Definition result (comp : nat -> nat -> bool) := merge_insertion_sorter comp (fun x => x) 0 9 (map Val input).

Definition same_result (r1 r2 : res nat unit) : bool :=
  match r1, r2 with
  | Ok _ m1, Ok _ m2 => forallb (fun p => match p with (Val x, Val y) => x =? y | _ => false end) (combine m1 m2)
  | _, _ => false
  end.

Lemma same_result_refl : forall r, r = Ok tt (map Val [0; 1; 2; 3; 4; 5; 6; 7; 8]) -> same_result r r = true.
Proof. intros r ->. reflexivity. Qed.

(** The result changes when the answer to any one of the questions changes. *)
Lemma questions_matter : forallb (fun q => negb (same_result (result (flip_at q)) (result Nat.ltb))) questions = true.
Proof. vm_compute. reflexivity. Qed.

Lemma not_all_in : forall asked, length asked <= 19 -> exists q, In q questions /\ ~ In q asked.
Proof.
  intros asked HL.
  assert (ND : NoDup questions) by (unfold questions; repeat constructor; simpl; intuition congruence).
  assert (dec : forall x y : nat * nat, {x = y} + {x <> y}) by (intros; decide equality; apply Nat.eq_dec).
  assert (forall l, (forall q, In q l -> In q asked) \/ exists q, In q l /\ ~ In q asked) as HD.
  { induction l as [|q l IH]. { left. intros q []. }
    destruct (in_dec dec q asked); [|right; exists q; simpl; auto].
    destruct IH as [IH|(q' & H1 & H2)]; [|right; exists q'; simpl; auto]. left. intros q' [<-|H]; auto. }
  destruct (HD questions) as [HI|H]; auto. exfalso. pose proof (NoDup_incl_length ND HI). simpl in H. lia.
Qed.

Lemma nineteen_comparisons_refuted :
  ~ (forall xs : list nat, length xs = 9 -> exists asked, length asked <= 19 /\
       decided_by (fun comp => merge_insertion_sorter comp (fun x => x) 0 9 (map Val xs)) Nat.ltb asked).
Proof.
  intros H. destruct (H input eq_refl) as (asked & HL & HD). destruct (not_all_in asked HL) as (q & Hq & Hn).
  specialize (HD (flip_at q)). pose proof questions_matter as HM. rewrite forallb_forall in HM. specialize (HM q Hq).
  unfold result in HM. cbv beta in HD. rewrite HD in HM.
  - rewrite same_result_refl in HM; [discriminate|]. vm_compute. reflexivity.
  - intros x y Hxy. unfold flip_at. destruct (Nat.eqb_spec x (fst q)) as [E1|], (Nat.eqb_spec y (snd q)) as [E2|]; simpl; auto.
    exfalso. apply Hn. destruct q; simpl in *; subst; auto.
Qed.

Lemma insertion_batches : forall n, snd (Nat.iter (S n) next_batch first_batch) = 4 * jacobsthal (S n).
Proof.
  assert (forall n, exists pow2 jn dist, Nat.iter (S n) next_batch first_batch = (pow2, jn, dist) /\ dist = 2 * jn /\ jn = 2 * jacobsthal (S n) /\
            2 * pow2 = 2 * jacobsthal (S (S n)) + 2 * jacobsthal (S n)) as H.
  { induction n as [|n IH].
    - exists 2, 2, 4. cbn. auto.
    - destruct IH as (pow2 & jn & dist & E & E1 & E2 & E3). change (Nat.iter (S (S n)) next_batch first_batch) with (next_batch (Nat.iter (S n) next_batch first_batch)).
      rewrite E. unfold next_batch. exists (pow2 * 2), (pow2 * 2 - jn), (2 * (pow2 * 2 - jn)).
      assert (EJ : forall k, jacobsthal (S (S k)) = jacobsthal (S k) + 2 * jacobsthal k) by reflexivity. pose proof (EJ (S n)). clear EJ. remember (jacobsthal (S (S (S n)))). remember (jacobsthal (S (S n))). remember (jacobsthal (S n)).
      clear -E1 E2 E3 H. repeat split; lia. }
  intros n. destruct (H n) as (pow2 & jn & dist & -> & -> & -> & _). cbn [snd]. lia.
Qed.
