(** Proofs about immovable_vector. *)
From Coq Require Import List Bool Arith ZArith Lia.
From Verif Require Import Model.ImmovableVector.
Import ListNotations.

(** The first [n] elements live. *)
Definition first_alive (n : nat) (f : nat -> bool) : Prop := forall i, f i = (i <? n).

Lemma set_alive_true : forall n f, first_alive n f -> first_alive (n + 1) (set_alive f n true).
Proof.
  intros n f H i. unfold set_alive. destruct (Nat.eqb_spec n i) as [->|N].
  - symmetry. apply Nat.ltb_lt. lia.
  - rewrite H. destruct (Nat.ltb_spec i n), (Nat.ltb_spec i (n + 1)); auto; lia.
Qed.

(** Elements [a] to [a + n] are destroyed, from a vector where those before [b] and from [a] to [a + n] live. *)
Lemma destroy_spec : forall n a b f, b <= a -> (forall i, f i = (i <? b) || ((a <=? i) && (i <? a + n))) ->
  exists g, destroy a n f = Some g /\ first_alive b g.
Proof.
  induction n as [|n IH]; intros a b f L H; simpl.
  - exists f. split; auto. intros i. rewrite H, Nat.add_0_r. destruct (Nat.leb_spec a i), (Nat.ltb_spec i a); simpl; rewrite ?orb_false_r; auto; lia.
  - rewrite (H a), Nat.leb_refl. replace (a <? a + S n) with true by (symmetry; apply Nat.ltb_lt; lia). rewrite orb_true_r.
    apply IH; [lia|]. intros i. unfold set_alive. destruct (Nat.eqb_spec a i) as [->|N].
    + destruct (Nat.ltb_spec i b), (Nat.leb_spec (S i) i); simpl; auto; lia.
    + rewrite H. f_equal. destruct (Nat.leb_spec a i), (Nat.leb_spec (S a) i), (Nat.ltb_spec i (a + S n)), (Nat.ltb_spec i (S a + n)); simpl; auto; lia.
Qed.

Lemma destroy_all : forall n f, first_alive n f -> exists g, destroy 0 n f = Some g /\ first_alive 0 g.
Proof. intros n f H. apply destroy_spec; auto. Qed.

Lemma insert_loop_spec : forall capacity l writer f, first_alive writer f -> writer + length l <= capacity ->
  (existsb id l = false /\ exists g, insert_loop capacity l writer f = Returns (writer + length l, g) /\ first_alive (writer + length l) g) \/
  (existsb id l = true /\ exists w g, insert_loop capacity l writer f = Throws (w, g) /\ writer <= w /\ first_alive w g).
Proof.
  intros capacity l. induction l as [|b l IH]; intros writer f H L; simpl in *.
  - left. split; auto. exists f. now rewrite Nat.add_0_r.
  - unfold construct. replace (capacity <=? writer) with false by (symmetry; apply Nat.leb_gt; lia).
    rewrite H, Nat.ltb_irrefl. destruct b; simpl.
    + right. split; auto. exists writer, f. auto.
    + destruct (IH (writer + 1) (set_alive f writer true)) as [[E (g & R & A)] | [E (w & g & R & W & A)]]; [now apply set_alive_true|lia| |].
      * left. split; auto. exists g. replace (writer + S (length l)) with (writer + 1 + length l) by lia. auto.
      * right. split; auto. exists w, g. repeat split; auto; lia.
Qed.

(** The size, if insertions that throw have no effect. *)
Definition size_after (o : operation) (n : nat) : nat :=
  match o with
  | EmplaceBack throws => if throws then n else n + 1
  | InsertBack l => if existsb id l then n else n + length l
  | Clear => 0
  end.

Lemma operate_spec : forall o v, first_alive (end_ v) (alive v) ->
  end_ v + match o with EmplaceBack _ => 1 | InsertBack m => length m | Clear => 0 end <= capacity v ->
  exists w, (operate o v = Returns w \/ operate o v = Throws w) /\ capacity w = capacity v /\ end_ w = size_after o (end_ v) /\ first_alive (end_ w) (alive w) /\
    (operate o v = Throws w <-> match o with EmplaceBack b => b = true | InsertBack m => existsb id m = true | Clear => False end).
Proof.
  intros [b|m|] [c f n] H L; simpl in *.
  - unfold emplace_back, construct. simpl. replace (c <=? n) with false by (symmetry; apply Nat.leb_gt; lia). rewrite H, Nat.ltb_irrefl.
    destruct b; eexists; (split; [eauto|]); simpl; repeat split; auto; try discriminate. now apply set_alive_true.
  - unfold insert_back. simpl. destruct (insert_loop_spec c m n f H L) as [[E (g & R & A)] | [E (w & g & R & W & A)]]; rewrite R, E.
    + eexists. split; [eauto|]. simpl. repeat split; auto; discriminate.
    + destruct (destroy_spec (w - n) n n g) as (h & D & B); [lia| |].
      * intros i. rewrite A. destruct (Nat.ltb_spec i w), (Nat.ltb_spec i n), (Nat.leb_spec n i), (Nat.ltb_spec i (n + (w - n))); simpl; auto; lia.
      * rewrite D. eexists. split; [eauto|]. simpl. repeat split; auto.
  - unfold clear. simpl. destruct (destroy_all n f H) as (g & D & A). rewrite D. eexists. split; [eauto|]. simpl. repeat split; auto; try discriminate. contradiction.
Qed.
