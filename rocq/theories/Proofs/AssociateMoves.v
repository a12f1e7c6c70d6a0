From Coq Require Import List ZArith Bool Lia.
From Verif Require Import Model.IterMove Model.AssociateMoves Spec.AssociateMoves.
Import ListNotations.

Lemma swap_elements_spec : forall it i j, swap_elements it i j = [(false, Swapped (iter_swap All (Base (iterator_of_collection it)) i j))].
Proof. induction it as [k|it IH]; intros i j; cbn [swap_elements iterator_of_collection]; auto. Qed.

Lemma assign_deref_spec : forall it i j,
  assign_deref it i j = [(0 <? adapters it, Assigned j (FromIterator (ByStdMove i)))]%nat.
Proof. induction it as [k|it IH]; intros i j; cbn [assign_deref adapters]; auto. now rewrite IH. Qed.

(** Every operation, by the number of adapters. *)
Definition plain_steps (it : iterator) (o : op) : list step :=
  match o with
  | Take z => [(false, Constructed (if (adapters it =? 0)%nat && dedicated_move (iterator_of_collection it) then ByIterMove z else ByStdMove z))]
  | Put z => [(false, Assigned z FromTemporary)]
  | Move i j => if (adapters it =? 0)%nat
                then [(false, Assigned j (FromIterator (if dedicated_move (iterator_of_collection it) then ByIterMove i else ByStdMove i)))]
                else [(false, Constructed (ByStdMove i)); (false, Assigned j FromTemporary)]
  | MoveDeref i j => [((0 <? adapters it)%nat, Assigned j (FromIterator (ByStdMove i)))]
  | Swap i j => [(false, Swapped (iter_swap All (Base (iterator_of_collection it)) i j))]
  end.
Lemma steps_of_spec : forall it o,
  (uses_iter_move o /\ (1 < adapters it)%nat /\ steps_of it o = None) \/
  ((~ uses_iter_move o \/ (adapters it <= 1)%nat) /\ steps_of it o = Some (plain_steps it o)).
Proof.
  intros it o. destruct o as [z|z|i j|i j|i j]; cbn [steps_of uses_iter_move plain_steps].
  - destruct it as [k|[k|it]]; cbn; [right|right|left]; repeat split; auto; lia.
  - right. auto.
  - destruct it as [k|[k|it]]; cbn; [right|right|left]; repeat split; auto; lia.
  - right. rewrite assign_deref_spec. auto.
  - right. rewrite swap_elements_spec. auto.
Qed.

Lemma steps_spec : forall it p,
  (Exists uses_iter_move p /\ (1 < adapters it)%nat /\ steps it p = None) \/
  ((~ Exists uses_iter_move p \/ (adapters it <= 1)%nat) /\ steps it p = Some (flat_map (plain_steps it) p)).
Proof.
  intros it p. induction p as [|o p IH].
  - right. split; auto. left. intros H. inversion H.
  - cbn [steps flat_map]. destruct (steps_of_spec it o) as [(HU & HA & ->)|(HO & ->)].
    + left. auto.
    + destruct IH as [(HU & HA & ->)|(HP & ->)]; [left; auto|].
      right. split; auto. destruct HO as [HO|HO]; auto. destruct HP as [HP|HP]; auto.
      left. intros H. inversion H; auto.
Qed.

Lemma never_terminates : forall throws l n d, (forall s, In s l -> fst s = false) -> run throws n l <> Terminates d.
Proof.
  intros throws l. induction l as [|[b a] l IH]; intros n d H; [discriminate|]. cbn [run].
  assert (b = false) as -> by (apply (H (b, a)); now left).
  destruct (throws n a); [discriminate|].
  specialize (IH (S n)). destruct (run throws (S n) l) as [e|e|e]; try discriminate.
  exfalso. apply (IH e); auto. intros s Hs. apply H. now right.
Qed.
Definition on_nothrow (n : nat) (m : nat) (a : action) : bool := (n =? m)%nat.
Lemma terminates_at : forall l a r n,
  run (on_nothrow (n + length l)) n (l ++ (true, a) :: r) = Terminates (map snd l).
Proof.
  induction l as [|[b c] l IH]; intros a r n; cbn [run app length map snd].
  - unfold on_nothrow. now rewrite Nat.add_0_r, Nat.eqb_refl.
  - unfold on_nothrow at 1. replace (n + S (length l) =? n)%nat with false by (symmetry; apply Nat.eqb_neq; lia).
    replace (n + S (length l))%nat with (S n + length l)%nat by lia. now rewrite IH.
Qed.

Lemma app_inj_len {B} : forall (a b c d : list B), length a = length c -> a ++ b = c ++ d -> a = c /\ b = d.
Proof.
  induction a as [|x a IH]; intros b [|y c] d HL H; try discriminate; auto.
  cbn in H. injection H as -> H. apply IH in H as [-> ->]; auto.
Qed.
Definition movements (it : iterator) (o : op) : list movement := flat_map (fun s => movement_of (snd s)) (plain_steps it o).
Lemma flat_map_steps {B} : forall (f : step -> list B) it p,
  flat_map f (flat_map (plain_steps it) p) = flat_map (fun o => flat_map f (plain_steps it o)) p.
Proof. intros f it p. induction p as [|o p IH]; cbn [flat_map]; auto. now rewrite flat_map_app, IH. Qed.
Lemma movements_spec : forall it o,
  map regardless_of_function (movements it o) = map regardless_of_function (expected_movement (iterator_of_collection it) o) /\
  length (movements it o) = length (expected_movement (iterator_of_collection it) o) /\
  (movements it o = expected_movement (iterator_of_collection it) o <->
   adapters it = 0%nat \/ dedicated_move (iterator_of_collection it) = false \/ ~ uses_iter_move o).
Proof.
  intros it o. unfold movements.
  destruct o; cbn [plain_steps flat_map snd movement_of expected_movement app uses_iter_move]; try (repeat split; auto; fail);
    destruct (adapters it); cbn [Nat.eqb andb flat_map snd movement_of app]; destruct (dedicated_move (iterator_of_collection it));
    repeat split; auto; try discriminate; intros [H|[H|H]]; try discriminate; now destruct H.
Qed.
Lemma all_movements_spec : forall it p,
  flat_map (movements it) p = flat_map (expected_movement (iterator_of_collection it)) p <->
  adapters it = 0%nat \/ dedicated_move (iterator_of_collection it) = false \/ ~ Exists uses_iter_move p.
Proof.
  intros it p. induction p as [|o p IH]; cbn [flat_map].
  - split; auto. intros _. right. right. intros H. inversion H.
  - destruct (movements_spec it o) as (_ & HL & HM). split.
    + intros H. apply app_inj_len in H as [H1 H2]; auto.
      apply HM in H1. apply IH in H2. destruct H1 as [H1|[H1|H1]]; auto. destruct H2 as [H2|[H2|H2]]; auto.
      right. right. intros H. inversion H; auto.
    + intros H. f_equal; [apply HM|apply IH]; destruct H as [H|[H|H]]; auto; right; right; intros X; apply H; auto.
Qed.

Lemma run_returns : forall throws l n,
  (forall i a, nth_error (map snd l) i = Some a -> throws (n + i)%nat a = false) -> run throws n l = Returns (map snd l).
Proof.
  intros throws l. induction l as [|[b a] l IH]; intros n H; auto. cbn [run map snd].
  rewrite <- (Nat.add_0_r n) at 1. rewrite (H 0%nat a) by reflexivity. rewrite (IH (S n)); auto.
  intros i c Hi. rewrite Nat.add_succ_comm. now apply H.
Qed.
Lemma run_stops : forall throws l n i b a,
  nth_error l i = Some (b, a) -> throws (n + i)%nat a = true ->
  (forall j c, (j < i)%nat -> nth_error (map snd l) j = Some c -> throws (n + j)%nat c = false) ->
  run throws n l = (if b then Terminates else Throws) (firstn i (map snd l)).
Proof.
  intros throws l. induction l as [|[d c] l IH]; intros n i b a HI HT H; [now destruct i|]. cbn [run map snd].
  destruct i as [|i]; cbn [nth_error firstn] in *.
  - injection HI as -> ->. rewrite Nat.add_0_r in HT. rewrite HT. now destruct b.
  - rewrite <- (Nat.add_0_r n) at 1. rewrite (H 0%nat c) by (auto; lia).
    rewrite (IH (S n) i b a); auto; [now destruct b|now rewrite Nat.add_succ_comm|].
    intros j e Hj HE. rewrite Nat.add_succ_comm. apply H; auto. lia.
Qed.
