From Coq Require Import List Arith Lia Permutation Bool ZArith Zify ZifyNat.
From Verif Require Import Lang.Mem Proofs.Wp Model.Rotate.
Import ListNotations.

Section Rotate.
Context {A : Type}.
Implicit Types pre post : mem A.

Definition live (c : cell A) : Prop := c <> Raw.

Lemma live_vals : forall xs, Forall live (map Val xs).
Proof. intros. apply Forall_forall. intros c H. apply in_map_iff in H as (x & <- & _). discriminate. Qed.
Lemma live_moved : forall n, Forall live (repeat Moved n).
Proof. intros. apply Forall_forall. intros c H. apply repeat_spec in H. subst. discriminate. Qed.

(** Shift left into a gap of live cells that ends where the source begins. *)
Lemma move_range_left_wp : forall xs pre G post f l r (Q : nat -> mem A -> Prop), G <> [] -> Forall live G ->
  r = length pre -> f = r + length G -> l = f + length xs ->
  (forall G', length G' = length G -> Forall live G' ->
     Q (r + length xs) (pre ++ map Val xs ++ G' ++ post)) ->
  wp (move_range f l r) Q (pre ++ G ++ map Val xs ++ post).
Proof.
  intros xs pre G post f l r Q HG HL -> -> -> HQ. unfold move_range.
  apply wp_loop' with
    (I := fun '(f', r') m => exists ys zs G', xs = ys ++ zs /\ length G' = length G /\ Forall live G' /\
       m = pre ++ map Val ys ++ G' ++ map Val zs ++ post /\
       r' = length pre + length ys /\ f' = r' + length G)
    (mu := fun '(f', r') => length pre + length G + length xs - f').
  - exists [], xs, G. cj; auto; lens.
  - lens.
  - intros [f' r'] m (ys & zs & G' & -> & HG' & HL' & -> & -> & ->).
    rewrite app_length in *.
    destruct zs as [|z zs].
    + simpl. rewrite Nat.add_0_r in *.
      replace (length pre + length ys + length G) with (length pre + length G + length ys) by lia.
      rewrite Nat.eqb_refl. apply wp_ret.
      specialize (HQ G' HG' HL'). rewrite app_nil_r in HQ. auto.
    + simpl length in *. destruct (Nat.eqb_spec (length pre + length ys + length G) (length pre + length G + (length ys + S (length zs)))); [lia|].
      destruct G' as [|c G']. { destruct G; [congruence|simpl in HG'; lia]. }
      simpl in HG'. inversion HL'; subst.
      apply wp_bind.
      reshape ((pre ++ map Val ys) ++ c :: G' ++ Val z :: map Val zs ++ post).
      apply wp_move_to_left; try lens; auto.
      apply wp_ret. split; [|lia]. exists (ys ++ [z]), zs, (G' ++ [Moved]).
      cj.
      * now rewrite <- app_assoc.
      * lens.
      * apply Forall_app. split; auto. constructor; auto. discriminate.
      * solve_app.
      * lens.
      * lens.
Qed.

(** Shift right. *)
Lemma move_backward_right_wp : forall xs pre G post f l r (Q : nat -> mem A -> Prop), G <> [] -> Forall live G ->
  f = length pre -> l = f + length xs -> r = l + length G ->
  (forall G', length G' = length G -> Forall live G' ->
     Q (f + length G) (pre ++ G' ++ map Val xs ++ post)) ->
  wp (move_backward f l r) Q (pre ++ map Val xs ++ G ++ post).
Proof.
  intros xs pre G post f l r Q HG HL -> -> -> HQ. unfold move_backward.
  apply wp_loop' with
    (I := fun '(l', r') m => exists ys zs G', xs = ys ++ zs /\ length G' = length G /\ Forall live G' /\
       m = pre ++ map Val ys ++ G' ++ map Val zs ++ post /\
       l' = length pre + length ys /\ r' = l' + length G)
    (mu := fun '(l', r') => l' - length pre).
  - exists xs, [], G. cj; auto; try lens. now rewrite app_nil_r.
  - lens.
  - intros [l' r'] m (ys & zs & G' & -> & HG' & HL' & -> & -> & ->).
    destruct (Nat.eqb_spec (length pre) (length pre + length ys)) as [E|E].
    + destruct ys; [|simpl in E; lia]. apply wp_ret. simpl. rewrite Nat.add_0_r.
      apply HQ; auto.
    + destruct (exists_last (l := ys)) as (ys' & y & ->). { intros ->. simpl in E. lia. }
      destruct (exists_last (l := G')) as (G2 & c & ->). { intros ->. destruct G; [congruence|discriminate]. }
      apply Forall_app in HL' as [HL2 HLc]. inversion HLc; subst.
      rewrite app_length in HG'. simpl in HG'.
      apply wp_bind.
      reshape ((pre ++ map Val ys') ++ Val y :: G2 ++ c :: map Val zs ++ post).
      apply wp_move_to_right; try lens; auto.
      apply wp_ret. split; [|lens]. exists ys', (y :: zs), (Moved :: G2).
      cj.
      * now rewrite <- app_assoc.
      * lens.
      * constructor; auto. discriminate.
      * solve_app.
      * lens.
      * lens.
Qed.

Lemma rotate_left_wp : forall x xs pre post f l (Q : nat -> mem A -> Prop),
  f = length pre -> l = f + S (length xs) ->
  Q (f + length xs) (pre ++ map Val (xs ++ [x]) ++ post) ->
  wp (rotate_left f l) Q (pre ++ map Val (x :: xs) ++ post).
Proof.
  intros x xs pre post f l Q -> -> HQ. unfold rotate_left.
  apply wp_bind. reshape (pre ++ Val x :: map Val xs ++ post). apply wp_take_at; auto.
  apply wp_bind. reshape (pre ++ [Moved] ++ map Val xs ++ post).
  apply move_range_left_wp; try lens; auto.
  { discriminate. } { constructor; auto. discriminate. }
  intros G' HG HL. destruct G' as [|c [|? ?]]; try discriminate. inversion HL; subst.
  apply wp_bind. reshape ((pre ++ map Val xs) ++ c :: post).
  apply wp_put_at; auto. { lens. } apply wp_ret.
  replace ((pre ++ map Val xs) ++ Val x :: post) with (pre ++ map Val (xs ++ [x]) ++ post); auto.
  solve_app.
Qed.

Lemma rotate_right_wp : forall x xs pre post f l (Q : nat -> mem A -> Prop),
  f = length pre -> l = f + S (length xs) ->
  Q (f + 1) (pre ++ map Val (x :: xs) ++ post) ->
  wp (rotate_right f l) Q (pre ++ map Val (xs ++ [x]) ++ post).
Proof.
  intros x xs pre post f l Q -> -> HQ. unfold rotate_right.
  apply wp_bind. reshape ((pre ++ map Val xs) ++ Val x :: post). apply wp_take_at. { lens. }
  apply wp_bind. reshape (pre ++ map Val xs ++ [Moved] ++ post).
  apply move_backward_right_wp; try lens; auto.
  { discriminate. } { constructor; auto. discriminate. }
  intros G' HG HL. destruct G' as [|c [|? ?]]; try discriminate. inversion HL; subst.
  apply wp_bind. reshape (pre ++ c :: map Val xs ++ post).
  apply wp_put_at; auto.
Qed.

(** The state of [rotate_forward]: [p] still to be swapped out, [q] already swapped out, [r] to come;
    what remains to be built is [r ++ q ++ p]. *)
Lemma rotate_forward_1_wp : forall p r pre post f mi l, p <> [] -> r <> [] ->
  f = length pre -> mi = f + length p -> l = mi + length r ->
  wp (rotate_forward_1 f mi l) (fun '(f', mi') m' => exists done p' q',
      m' = pre ++ map Val (done ++ p' ++ q') ++ post /\ done ++ q' ++ p' = r ++ p /\
      length done = length r /\ f' = f + length done /\ mi' = f' + length p' /\ l = mi' + length q' /\
      q' <> [])
    (pre ++ map Val (p ++ r) ++ post).
Proof.
  intros p r pre post f mi l Hp Hr -> -> ->. unfold rotate_forward_1.
  apply wp_loop' with
    (I := fun '(f', mi', i) m => exists done p' q' r',
      m = pre ++ map Val (done ++ p' ++ q' ++ r') ++ post /\ done ++ r' ++ q' ++ p' = r ++ p /\
      r' <> [] /\ p' <> [] /\
      length done + length r' = length r /\ f' = length pre + length done /\
      mi' = f' + length p' /\ i = mi' + length q' /\
      i + length r' = length pre + length p + length r)
    (mu := fun '(f', mi', i) => length pre + length p + length r - f').
  - exists [], p, [], r. cj; auto; lens.
  - lia.
  - intros [[f' mi'] i] m (done & p' & q' & r' & -> & E & Hr' & Hp' & EL & -> & -> & -> & EI).
    destruct p' as [|x p']; [congruence|]. destruct r' as [|y r']; [congruence|].
    apply wp_bind.
    reshape ((pre ++ map Val done) ++ Val x :: map Val (p' ++ q') ++ Val y :: map Val r' ++ post).
    apply wp_swap_at; try (lens; fail).
    simpl length in *.
    destruct (Nat.eqb_spec (S (length pre + length done + S (length p') + length q'))
       (length pre + length p + length r)) as [E1|E1].
    + assert (r' = []) as -> by (destruct r'; auto; simpl in *; lia).
      apply wp_ret. exists (done ++ [y]), p', (q' ++ [x]). cj; auto; try (lens; fail).
      * solve_app.
      * rewrite <- E. solve_app.
      * intros H. apply app_eq_nil in H as [_ H]. discriminate.
    + assert (r' <> []) as Hr2. { intros ->. simpl in *. lia. }
      apply wp_ret.
      destruct (Nat.eqb_spec (S (length pre + length done)) (length pre + length done + S (length p'))) as [E2|E2].
      * assert (p' = []) as -> by (destruct p'; auto; simpl in *; lia).
        split; [|lia].
        exists (done ++ [y]), (q' ++ [x]), [], r'. cj; auto; try (lens; fail).
        -- solve_app.
        -- rewrite <- E. solve_app.
        -- intros H. apply app_eq_nil in H as [_ H]. discriminate.
      * split; [|lia].
        exists (done ++ [y]), p', (q' ++ [x]), r'. cj; auto; try (lens; fail).
        -- solve_app.
        -- rewrite <- E. solve_app.
        -- intros ->. simpl in E2. lia.
Qed.

Lemma rotate_forward_2_wp : forall p r pre post f mi l, p <> [] -> r <> [] ->
  f = length pre -> mi = f + length p -> l = mi + length r ->
  wp (rotate_forward_2 f mi l) (fun _ m' => m' = pre ++ map Val (r ++ p) ++ post)
    (pre ++ map Val (p ++ r) ++ post).
Proof.
  intros p r pre post f mi l Hp Hr -> -> ->. unfold rotate_forward_2.
  apply wp_loop' with
    (I := fun '(f', mi', i) m => exists done p' q' r',
      m = pre ++ map Val (done ++ p' ++ q' ++ r') ++ post /\ done ++ r' ++ q' ++ p' = r ++ p /\
      r' <> [] /\ p' <> [] /\
      f' = length pre + length done /\
      mi' = f' + length p' /\ i = mi' + length q' /\
      i + length r' = length pre + length p + length r)
    (mu := fun '(f', mi', i) => length pre + length p + length r - f').
  - exists [], p, [], r. cj; auto; lens.
  - lia.
  - intros [[f' mi'] i] m (done & p' & q' & r' & -> & E & Hr' & Hp' & -> & -> & -> & EI).
    destruct p' as [|x p']; [congruence|]. destruct r' as [|y r']; [congruence|].
    apply wp_bind.
    reshape ((pre ++ map Val done) ++ Val x :: map Val (p' ++ q') ++ Val y :: map Val r' ++ post).
    apply wp_swap_at; try (lens; fail).
    simpl length in *.
    destruct (Nat.eqb_spec (S (length pre + length done + S (length p') + length q'))
       (length pre + length p + length r)) as [E1|E1].
    + assert (r' = []) as -> by (destruct r'; auto; simpl in *; lia).
      destruct (Nat.eqb_spec (S (length pre + length done)) (length pre + length done + S (length p'))) as [E2|E2];
        apply wp_ret.
      * assert (p' = []) as -> by (destruct p'; auto; simpl in *; lia).
        rewrite <- E. solve_app.
      * split; [|lia]. exists (done ++ [y]), p', [], (q' ++ [x]). cj; auto; try (lens; fail).
        -- solve_app.
        -- rewrite <- E. solve_app.
        -- intros H. apply app_eq_nil in H as [_ H]. discriminate.
        -- intros ->. simpl in E2. lia.
    + assert (r' <> []) as Hr2. { intros ->. simpl in *. lia. }
      apply wp_ret.
      destruct (Nat.eqb_spec (S (length pre + length done)) (length pre + length done + S (length p'))) as [E2|E2].
      * assert (p' = []) as -> by (destruct p'; auto; simpl in *; lia).
        split; [|lia].
        exists (done ++ [y]), (q' ++ [x]), [], r'. cj; auto; try (lens; fail).
        -- solve_app.
        -- rewrite <- E. solve_app.
        -- intros H. apply app_eq_nil in H as [_ H]. discriminate.
      * split; [|lia].
        exists (done ++ [y]), p', (q' ++ [x]), r'. cj; auto; try (lens; fail).
        -- solve_app.
        -- rewrite <- E. solve_app.
        -- intros ->. simpl in E2. lia.
Qed.

Lemma rotate_forward_wp : forall p r pre post f mi l (Q : nat -> mem A -> Prop), p <> [] -> r <> [] ->
  f = length pre -> mi = f + length p -> l = mi + length r ->
  Q (f + length r) (pre ++ map Val (r ++ p) ++ post) ->
  wp (rotate_forward f mi l) Q (pre ++ map Val (p ++ r) ++ post).
Proof.
  intros p r pre post f mi l Q Hp Hr Ef Em El HQ. unfold rotate_forward.
  apply wp_bind. eapply wp_mono; [eapply rotate_forward_1_wp; eauto|].
  intros [f' mi'] m' (done & p' & q' & -> & E & EL & -> & -> & -> & Hq).
  apply wp_bind.
  destruct (Nat.eqb_spec (f + length done) (f + length done + length p')) as [E1|E1].
  - assert (p' = []) as -> by (destruct p'; auto; simpl in *; lia).
    apply wp_ret. apply wp_ret. rewrite EL. rewrite app_nil_r in E. simpl. rewrite E. auto.
  - reshape ((pre ++ map Val done) ++ map Val (p' ++ q') ++ post).
    eapply wp_mono.
    { apply (rotate_forward_2_wp p' q' (pre ++ map Val done)); auto; try (lens; fail). intros ->. simpl in E1. lia. }
    intros _ m' ->. apply wp_ret. rewrite EL.
    replace ((pre ++ map Val done) ++ map Val (q' ++ p') ++ post) with (pre ++ map Val (r ++ p) ++ post); auto.
    rewrite <- E. solve_app.
Qed.

Lemma swap_ranges_wp : forall xs ys pre mid post f1 l1 f2 (Q : nat -> mem A -> Prop),
  length xs = length ys -> f1 = length pre -> l1 = f1 + length xs -> f2 = l1 + length mid ->
  Q (f2 + length ys) (pre ++ map Val ys ++ mid ++ map Val xs ++ post) ->
  wp (swap_ranges f1 l1 f2) Q (pre ++ map Val xs ++ mid ++ map Val ys ++ post).
Proof.
  intros xs ys pre mid post f1 l1 f2 Q HL -> -> -> HQ. unfold swap_ranges.
  apply wp_loop' with
    (I := fun '(g1, g2) m => exists x1 x2 y1 y2, xs = x1 ++ x2 /\ ys = y1 ++ y2 /\
       length x1 = length y1 /\
       m = pre ++ map Val (y1 ++ x2) ++ mid ++ map Val (x1 ++ y2) ++ post /\
       g1 = length pre + length x1 /\ g2 = length pre + length xs + length mid + length x1)
    (mu := fun '(g1, g2) => length pre + length xs - g1).
  - exists [], xs, [], ys. cj; auto; lens.
  - lia.
  - intros [g1 g2] m (x1 & x2 & y1 & y2 & -> & -> & E & -> & -> & ->).
    rewrite app_length in *.
    destruct x2 as [|x x2]; destruct y2 as [|y y2]; try (lens; fail).
    + simpl. rewrite Nat.add_0_r, Nat.eqb_refl. apply wp_ret. rewrite !app_nil_r in *.
      simpl in *. rewrite Nat.add_0_r in *. rewrite E in *. auto.
    + simpl length in *. destruct (Nat.eqb_spec (length pre + length x1) (length pre + (length x1 + S (length x2)))); [lia|].
      apply wp_bind.
      reshape ((pre ++ map Val y1) ++ Val x :: (map Val x2 ++ mid ++ map Val x1) ++ Val y :: map Val y2 ++ post).
      apply wp_swap_at; try (lens; fail).
      apply wp_ret. split; [|lia].
      exists (x1 ++ [x]), x2, (y1 ++ [y]), y2.
      cj; try (lens; fail); try solve_app.
Qed.

Lemma reverse_bidirectional_wp : forall xs pre post f l,
  f = length pre -> l = f + length xs ->
  wp (reverse_bidirectional f l) (fun _ m => m = pre ++ map Val (rev xs) ++ post) (pre ++ map Val xs ++ post).
Proof.
  intros xs pre post f l -> ->. unfold reverse_bidirectional.
  apply wp_loop' with
    (I := fun '(g, h) m => exists x1 x2 x3, rev x3 ++ rev x2 ++ rev x1 = rev xs /\
       length x1 = length x3 /\ g = length pre + length x1 /\ h = g + length x2 /\
       m = pre ++ map Val (rev x3 ++ x2 ++ rev x1) ++ post)
    (mu := fun '(g, h) => h - g).
  - exists [], xs, []. cj; auto; try (lens; fail). simpl. now rewrite app_nil_r. simpl. now rewrite app_nil_r.
  - lia.
  - intros [g h] m (x1 & x2 & x3 & E & EL & -> & -> & ->).
    destruct x2 as [|x x2].
    + rewrite Nat.add_0_r, Nat.eqb_refl. apply wp_ret. rewrite <- E. reflexivity.
    + simpl length. destruct (Nat.eqb_spec (length pre + length x1) (length pre + length x1 + S (length x2))); [lia|].
      destruct (Nat.eqb_spec (length pre + length x1) (length pre + length x1 + S (length x2) - 1)) as [E1|E1].
      * assert (x2 = []) as -> by (destruct x2; auto; simpl in *; lia).
        apply wp_ret. rewrite <- E. reflexivity.
      * destruct (exists_last (l := x2)) as (x2' & y & ->). { intros ->. simpl in E1. lia. }
        apply wp_bind.
        reshape ((pre ++ map Val (rev x3)) ++ Val x :: map Val x2' ++ Val y :: map Val (rev x1) ++ post).
        apply wp_swap_at; try (lens; fail).
        apply wp_ret. split; [|lens].
        exists (x1 ++ [x]), x2', (y :: x3). cj; try (lens; fail).
        -- rewrite <- E. simpl. rewrite !rev_app_distr. simpl. now rewrite <- !app_assoc.
        -- rewrite rev_app_distr. simpl. solve_app.
Qed.

Lemma reverse_random_access_wp : forall xs pre post f l,
  f = length pre -> l = f + length xs ->
  wp (reverse_random_access f l) (fun _ m => m = pre ++ map Val (rev xs) ++ post) (pre ++ map Val xs ++ post).
Proof.
  intros xs pre post f l -> ->. unfold reverse_random_access.
  destruct (Nat.eqb_spec (length pre) (length pre + length xs)) as [E0|E0].
  { destruct xs; [|simpl in E0; lia]. apply wp_ret. reflexivity. }
  apply wp_loop' with
    (I := fun '(g, h) m => exists x1 x2 x3, rev x3 ++ rev x2 ++ rev x1 = rev xs /\
       length x1 = length x3 /\ g = length pre + length x1 /\ h = g + length x2 /\
       m = pre ++ map Val (rev x3 ++ x2 ++ rev x1) ++ post)
    (mu := fun '(g, h) => h - g).
  - exists [], xs, []. cj; auto; try (lens; fail). simpl. now rewrite app_nil_r. simpl. now rewrite app_nil_r.
  - lia.
  - intros [g h] m (x1 & x2 & x3 & E & EL & -> & -> & ->).
    destruct (Nat.ltb_spec (length pre + length x1) (length pre + length x1 + length x2 - 1)) as [E1|E1].
    + destruct x2 as [|x x2]; [simpl in E1; lia|].
      destruct (exists_last (l := x2)) as (x2' & y & ->). { intros ->. simpl in E1. lia. }
      apply wp_bind.
      reshape ((pre ++ map Val (rev x3)) ++ Val x :: map Val x2' ++ Val y :: map Val (rev x1) ++ post).
      apply wp_swap_at; try (lens; fail).
      apply wp_ret. split; [|lens].
      exists (x1 ++ [x]), x2', (y :: x3). cj; try (lens; fail).
      -- rewrite <- E. simpl. rewrite !rev_app_distr. simpl. now rewrite <- !app_assoc.
      -- rewrite rev_app_distr. simpl. solve_app.
    + apply wp_ret. rewrite <- E. destruct x2 as [|x [|? ?]]; try reflexivity. simpl in E1. lia.
Qed.

Lemma reverse_wp : forall cat xs pre post f l,
  f = length pre -> l = f + length xs ->
  wp (reverse cat f l) (fun _ m => m = pre ++ map Val (rev xs) ++ post) (pre ++ map Val xs ++ post).
Proof.
  intros. unfold reverse. destruct cat; auto using reverse_bidirectional_wp, reverse_random_access_wp.
Qed.
End Rotate.
