(** Moves between disjoint ranges. *)
From Coq Require Import List Arith Lia Bool.
From Verif Require Import Lang.Mem Proofs.Wp Model.Rotate Proofs.Rotate.
Import ListNotations.

Section Moves.
Context {A : Type}.

Lemma repeat_snoc : forall X (x : X) n l, repeat x n ++ x :: l = repeat x (S n) ++ l.
Proof. induction n; intros; simpl; auto. now rewrite IHn. Qed.

Lemma move_range_to_right_wp : forall xs (l1 l2 D l3 : mem A) f l r (Q : nat -> mem A -> Prop),
  Forall live D -> length D = length xs -> f = length l1 -> l = f + length xs -> r = l + length l2 ->
  Q (r + length xs) (l1 ++ repeat Moved (length xs) ++ l2 ++ map Val xs ++ l3) ->
  wp (move_range f l r) Q (l1 ++ map Val xs ++ l2 ++ D ++ l3).
Proof.
  intros xs l1 l2 D l3 f l r Q HD HL -> -> -> HQ. unfold move_range.
  apply wp_loop' with
    (I := fun '(f', r') m => exists ys zs D', xs = ys ++ zs /\ length D' = length zs /\ Forall live D' /\
       m = l1 ++ repeat Moved (length ys) ++ map Val zs ++ l2 ++ map Val ys ++ D' ++ l3 /\
       f' = length l1 + length ys /\ r' = length l1 + length xs + length l2 + length ys)
    (mu := fun '(f', r') => length l1 + length xs - f').
  - exists [], xs, D. cj; auto; simpl; lia.
  - lia.
  - intros [f' r'] m (ys & zs & D' & E & HL' & HD' & -> & -> & ->).
    destruct (Nat.eqb_spec (length l1 + length ys) (length l1 + length xs)) as [En|En].
    + assert (zs = []) as -> by (subst xs; destruct zs; [auto|lens]). rewrite app_nil_r in E. subst ys.
      destruct D'; [|simpl in HL'; lia]. apply wp_ret. exact HQ.
    + destruct zs as [|z zs]. { subst xs. rewrite app_nil_r in En. lia. }
      destruct D' as [|c D']; [simpl in HL'; lia|]. inversion HD'; subst.
      apply wp_bind.
      reshape ((l1 ++ repeat Moved (length ys)) ++ Val z :: (map Val zs ++ l2 ++ map Val ys) ++ c :: D' ++ l3).
      apply wp_move_to_right; auto; [lens|lens|]. apply wp_ret. split; [|lens].
      exists (ys ++ [z]), zs, D'. cj; auto; try (lens; fail).
      * now rewrite <- app_assoc.
      * rewrite app_length. simpl length. rewrite Nat.add_1_r. rewrite <- (repeat_snoc _ Moved).
        rewrite map_app. rewrite <- !app_assoc. simpl. rewrite <- ?app_assoc. reflexivity.
Qed.

Lemma move_range_to_left_wp : forall xs (l1 l2 D l3 : mem A) f l r (Q : nat -> mem A -> Prop),
  Forall live D -> length D = length xs -> r = length l1 -> f = r + length D + length l2 -> l = f + length xs ->
  Q (r + length xs) (l1 ++ map Val xs ++ l2 ++ repeat Moved (length xs) ++ l3) ->
  wp (move_range f l r) Q (l1 ++ D ++ l2 ++ map Val xs ++ l3).
Proof.
  intros xs l1 l2 D l3 f l r Q HD HL -> -> -> HQ. unfold move_range.
  apply wp_loop' with
    (I := fun '(f', r') m => exists ys zs D', xs = ys ++ zs /\ length D' = length zs /\ Forall live D' /\
       m = l1 ++ map Val ys ++ D' ++ l2 ++ repeat Moved (length ys) ++ map Val zs ++ l3 /\
       r' = length l1 + length ys /\ f' = length l1 + length xs + length l2 + length ys)
    (mu := fun '(f', r') => length l1 + length D + length l2 + length xs - f').
  - exists [], xs, D. cj; auto; simpl; lia.
  - lia.
  - intros [f' r'] m (ys & zs & D' & E & HL' & HD' & -> & -> & ->).
    destruct (Nat.eqb_spec (length l1 + length xs + length l2 + length ys) (length l1 + length D + length l2 + length xs)) as [En|En].
    + assert (zs = []) as -> by (subst xs; destruct zs; [auto|lens]). rewrite app_nil_r in E. subst ys.
      destruct D'; [|simpl in HL'; lia]. apply wp_ret. exact HQ.
    + destruct zs as [|z zs]. { subst xs. rewrite app_nil_r in *. lia. }
      destruct D' as [|c D']; [simpl in HL'; lia|]. inversion HD'; subst.
      apply wp_bind.
      reshape ((l1 ++ map Val ys) ++ c :: (D' ++ l2 ++ repeat Moved (length ys)) ++ Val z :: map Val zs ++ l3).
      apply wp_move_to_left; auto; [lens|lens|]. apply wp_ret. split; [|lens].
      exists (ys ++ [z]), zs, D'. cj; auto; try (lens; fail).
      * now rewrite <- app_assoc.
      * rewrite app_length. simpl length. rewrite Nat.add_1_r. rewrite <- (repeat_snoc _ Moved).
        rewrite map_app. rewrite <- !app_assoc. simpl. rewrite <- ?app_assoc. reflexivity.
Qed.
End Moves.
