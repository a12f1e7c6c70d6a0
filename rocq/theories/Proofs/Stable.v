(** Stable rearrangements; moves between a range and a buffer, in terms of segments of the memory. *)
From Coq Require Import List Arith Lia Permutation Bool.
From Verif Require Import Spec.Order Lang.Mem Spec.Sorts Proofs.Wp Proofs.OrderLib Model.Basic Proofs.Basic Model.Rotate Proofs.Rotate
  Proofs.Indirect Model.Buffer.
Import ListNotations.

Section Stable.
Context {A : Type} (lt : A -> A -> bool).
(** [ord] stands for "the comparator is a strict weak order", or for [False]. *)
Variable ord : Prop.
Hypothesis HORD : ord -> strict_weak_order lt.
Implicit Types l : list A.

Definition st l l' : Prop := Permutation l l' /\ (ord -> same_order_in_classes lt l l').

Lemma st_refl : forall l, st l l.
Proof. intros. split; auto. intros _. apply same_refl. Qed.
Lemma st_trans : forall l1 l2 l3, st l1 l2 -> st l2 l3 -> st l1 l3.
Proof. intros l1 l2 l3 [P1 S1] [P2 S2]. split; [now rewrite P1|]. intros Ho. eapply same_trans; eauto. Qed.
Lemma st_sym : forall l1 l2, st l1 l2 -> st l2 l1.
Proof. intros l1 l2 [P S]. split; [now symmetry|]. intros Ho. apply same_sym. auto. Qed.
Lemma st_app : forall l1 l2 r1 r2, st l1 r1 -> st l2 r2 -> st (l1 ++ l2) (r1 ++ r2).
Proof. intros l1 l2 r1 r2 [P1 S1] [P2 S2]. split; [now apply Permutation_app|]. intros Ho. apply same_app; auto. Qed.
Lemma st_cons : forall a l l', st l l' -> st (a :: l) (a :: l').
Proof. intros. apply (st_app [a] l [a] l'); auto using st_refl. Qed.
Lemma st_swap : forall l1 l2, (ord -> forall x y, In x l1 -> In y l2 -> lt y x = true) -> st (l1 ++ l2) (l2 ++ l1).
Proof. intros l1 l2 H. split; [apply Permutation_app_comm|]. intros Ho. apply same_swap; auto. Qed.
(** Exchange two adjacent blocks. *)
Lemma st_swap_mid : forall p l1 l2 q, (ord -> forall x y, In x l1 -> In y l2 -> lt y x = true) ->
  st (p ++ l1 ++ l2 ++ q) (p ++ l2 ++ l1 ++ q).
Proof.
  intros. apply st_app; [apply st_refl|]. rewrite !app_assoc. apply st_app; [now apply st_swap|apply st_refl].
Qed.
Lemma st_mid : forall p l l' q, st l l' -> st (p ++ l ++ q) (p ++ l' ++ q).
Proof. intros. repeat apply st_app; auto using st_refl. Qed.
Lemma st_perm : forall l l', st l l' -> Permutation l l'.
Proof. intros l l' [H _]. auto. Qed.
Lemma st_length : forall l l', st l l' -> length l = length l'.
Proof. intros l l' [H _]. now apply Permutation_length. Qed.
Lemma st_In : forall l l' x, st l l' -> In x l -> In x l'.
Proof. intros l l' x [H _]. now apply Permutation_in. Qed.

(** Reversing a strictly descending list. *)
Lemma st_rev : forall l, (ord -> sorted (fun x y => negb (lt x y)) l) -> st l (rev l).
Proof.
  induction l as [|a l IH]; intros H. { apply st_refl. }
  simpl. apply st_trans with (a :: rev l).
  - apply st_cons, IH. intros Ho. specialize (H Ho). apply sorted_cons in H. tauto.
  - change (a :: rev l) with ([a] ++ rev l). apply st_swap. intros Ho x y [<-|[]] Hy. apply in_rev in Hy.
    specialize (H Ho). apply sorted_cons in H as [H _]. specialize (H y Hy). unfold OrderLib.le in H. now apply negb_false_iff in H.
Qed.

Definition stable_rel (v w : list A) : Prop := st v w /\ (ord -> sorted lt w).

Lemma stable_rel_ssort : forall v w, stable_rel v w -> ord -> w = ssort lt v.
Proof.
  intros v w [[P S] HS] Ho. symmetry. apply stable_unique with (lt := lt); auto.
  - apply ssort_sorted; auto.
  - apply same_trans with v; auto. apply same_sym. apply ssort_same; auto.
Qed.
End Stable.

Section StableRuns.
Context {A T : Type} (comp : T -> T -> bool) (proj : A -> T).
Notation lt := (by_proj comp proj).
Lemma stable_runs : forall prog, runs (stable_rel lt True) prog <-> sorts_stably lt prog.
Proof.
  intros prog. split; intros H pre xs post; destruct (H pre xs post) as (ys & E & H1 & H2); exists ys; split; auto.
  - destruct H1 as [P S]. split; auto.
  - split; [split|]; tauto.
Qed.
Lemma permutes_runs_st : forall prog : range_prog A, runs (stable_rel lt False) prog <-> permutes prog.
Proof.
  intros prog. split; intros H pre xs post.
  - destruct (H pre xs post) as (ys & E & [HR _] & HS); exists ys; auto.
  - destruct (H pre xs post) as (ys & E & HR); exists ys; split; auto; split; [split|]; auto; tauto.
Qed.
End StableRuns.

Section Segments.
Context {A : Type}.
Implicit Types (L G M R : mem A) (xs : list A).
Notation live := (fun c : cell A => c <> Raw).

Lemma live_app : forall G1 G2, Forall live (G1 ++ G2) <-> Forall live G1 /\ Forall live G2.
Proof. intros. apply Forall_app. Qed.

Lemma wp_construct_at : forall L R a i (Q : unit -> mem A -> Prop), i = length L -> Q tt (L ++ Val a :: R) ->
  wp (construct i a) Q (L ++ Raw :: R).
Proof.
  intros L R a i Q -> HQ. apply wp_construct. { apply nth_at. auto. }
  replace (upd (length L) (Val a) (L ++ Raw :: R)) with (L ++ Val a :: R); auto. symmetry. now rewrite upd_mid.
Qed.
Lemma wp_destroy_at : forall L R c i (Q : unit -> mem A -> Prop), i = length L -> c <> Raw -> Q tt (L ++ Raw :: R) ->
  wp (destroy i) Q (L ++ c :: R).
Proof.
  intros L R a i Q -> Hc HQ. eapply wp_destroy. { apply nth_at. auto. } { auto. }
  now rewrite upd_mid.
Qed.

(** From an earlier segment to a later one. *)
Lemma uninitialized_move_seg : forall xs L M R f l r (Q : nat -> mem A -> Prop),
  f = length L -> l = f + length xs -> r = l + length M ->
  Q (r + length xs) (L ++ repeat Moved (length xs) ++ M ++ map Val xs ++ R) ->
  wp (uninitialized_move f l r) Q (L ++ map Val xs ++ M ++ repeat Raw (length xs) ++ R).
Proof.
  intros xs L M R f l r Q -> -> -> HQ. unfold uninitialized_move.
  apply wp_loop' with (I := fun '(f, r) m => exists a b, xs = a ++ b /\ f = length L + length a /\ r = length L + length xs + length M + length a /\
     m = L ++ repeat Moved (length a) ++ map Val b ++ M ++ map Val a ++ repeat Raw (length b) ++ R)
   (mu := fun '(f, r) => length L + length xs - f).
  - exists [], xs. cj; auto; simpl; lia.
  - lia.
  - intros [f r] m (a & b & -> & -> & -> & ->). rewrite app_length.
    destruct (Nat.eqb_spec (length L + length a) (length L + (length a + length b))) as [E|E].
    + apply wp_ret. destruct b; [|simpl in *; lia]. rewrite app_nil_r in HQ. simpl.
      match goal with |- Q ?n ?m => replace n with (length L + length a + length M + length a) by lia end. exact HQ.
    + destruct b as [|y b]; [simpl in *; lia|].
      reshape ((L ++ repeat Moved (length a)) ++ Val y :: map Val b ++ M ++ map Val a ++ repeat Raw (length (y :: b)) ++ R).
      apply wp_bind, wp_take_at. { lens. }
      reshape ((L ++ repeat Moved (length a) ++ Moved :: map Val b ++ M ++ map Val a) ++ Raw :: repeat Raw (length b) ++ R).
      apply wp_bind, wp_construct_at. { lens. } apply wp_ret. split; [|lens]. exists (a ++ [y]), b. cj; [solve_app|lens|lens|].
      rewrite app_length, repeat_app. simpl. solve_app.
Qed.

Lemma destroy_n_seg : forall G L R f n (Q : unit -> mem A -> Prop), Forall live G ->
  f = length L -> n = length G -> Q tt (L ++ repeat Raw (length G) ++ R) -> wp (destroy_n f n) Q (L ++ G ++ R).
Proof.
  intros G L R f n Q HL -> -> HQ. unfold destroy_n.
  apply wp_loop' with (I := fun '(f, n) m => exists a b, G = a ++ b /\ f = length L + length a /\ n = length b /\ m = L ++ repeat Raw (length a) ++ b ++ R)
   (mu := fun '(f, n) => n).
  - exists [], G. cj; auto.
  - lia.
  - intros [f n] m (a & b & -> & -> & -> & ->). apply live_app in HL as [HL1 HL2].
    destruct b as [|c b].
    + apply wp_ret. rewrite app_nil_r in HQ. exact HQ.
    + cbn [length Nat.eqb]. inversion HL2; subst.
      reshape ((L ++ repeat Raw (length a)) ++ c :: b ++ R). apply wp_bind, wp_destroy_at; auto. { lens. } apply wp_ret. split; [|lia].
      exists (a ++ [c]), b. cj; [solve_app|lens|lia|]. rewrite app_length, repeat_app. simpl. solve_app.
Qed.

(** From a later segment to an earlier one of the same length. *)
Lemma move_range_far : forall xs L G M R f l r (Q : nat -> mem A -> Prop), Forall live G -> length G = length xs ->
  r = length L -> f = r + length G + length M -> l = f + length xs ->
  (forall D, Forall live D -> length D = length xs -> Q (r + length xs) (L ++ map Val xs ++ M ++ D ++ R)) ->
  wp (move_range f l r) Q (L ++ G ++ M ++ map Val xs ++ R).
Proof.
  intros xs L G M R f l r Q HL HLn -> -> -> HQ. unfold move_range.
  apply wp_loop' with (I := fun '(f, r) m => exists a b G1 D, xs = a ++ b /\ Forall live G1 /\ length G1 = length b /\ Forall live D /\ length D = length a /\
     r = length L + length a /\ f = length L + length xs + length M + length a /\ m = L ++ map Val a ++ G1 ++ M ++ D ++ map Val b ++ R)
   (mu := fun '(f, r) => length L + length G - r).
  - exists [], xs, G, []. cj; auto; simpl; lia.
  - lia.
  - intros [f r] m (a & b & G1 & D & -> & HG & HGn & HD & HDn & -> & -> & ->). rewrite app_length in *.
    destruct b as [|y b].
    + rewrite HLn. destruct G1; [|discriminate]. simpl length. rewrite Nat.add_0_r. destruct (Nat.eqb_spec (length L + length a + length M + length a) (length L + length a + length M + length a)); [|lia].
      apply wp_ret. simpl in *. rewrite app_nil_r, Nat.add_0_r in HQ. apply HQ; auto.
    + destruct (Nat.eqb_spec (length L + (length a + length (y :: b)) + length M + length a) (length L + length G + length M + (length a + length (y :: b)))) as [E|E]; [simpl in *; lia|].
      destruct G1 as [|c G1]; [discriminate|]. inversion HG; subst.
      reshape ((L ++ map Val a) ++ c :: (G1 ++ M ++ D) ++ Val y :: map Val b ++ R).
      apply wp_bind. apply wp_move_to_left; [simpl in *; lens|lens|auto|]. apply wp_ret. split; [|simpl in *; lens].
      exists (a ++ [y]), b, G1, (D ++ [Moved]). cj; auto; try (simpl in *; lens; fail); try solve_app.
      apply live_app. split; auto. constructor; auto. discriminate.
Qed.

Lemma move_backward_far : forall xs L G M R f l r (Q : nat -> mem A -> Prop), Forall live G -> length G = length xs ->
  f = length L + length G + length M -> l = f + length xs -> r = length L + length G ->
  (forall D, Forall live D -> length D = length xs -> Q (length L) (L ++ map Val xs ++ M ++ D ++ R)) ->
  wp (move_backward f l r) Q (L ++ G ++ M ++ map Val xs ++ R).
Proof.
  intros xs L G M R f l r Q HL HLn -> -> -> HQ. unfold move_backward.
  apply wp_loop' with (I := fun '(l, r) m => exists a b G1 D, xs = a ++ b /\ Forall live G1 /\ length G1 = length a /\ Forall live D /\ length D = length b /\
     r = length L + length a /\ l = length L + length xs + length M + length a /\ m = L ++ G1 ++ map Val b ++ M ++ map Val a ++ D ++ R)
   (mu := fun '(l, r) => r - length L).
  - exists xs, [], G, []. cj; auto; simpl; try lia. now rewrite app_nil_r.
  - lia.
  - intros [l r] m (a & b & G1 & D & -> & HG & HGn & HD & HDn & -> & -> & ->). rewrite app_length in *.
    destruct a as [|y a] using rev_ind.
    + destruct G1; [|discriminate]. simpl in *. rewrite !Nat.add_0_r.
      destruct (Nat.eqb_spec (length L + length G + length M) (length L + length b + length M)); [|lia].
      apply wp_ret. apply HQ; auto.
    + clear IHa. rewrite !app_length in *. simpl length in *.
      destruct (Nat.eqb_spec (length L + length G + length M) (length L + (length a + 1 + length b) + length M + (length a + 1))) as [E|E]; [lia|].
      destruct G1 as [|c G1] using rev_ind; [simpl in *; lia|]. clear IHG1. rewrite app_length in HGn. simpl length in HGn. apply live_app in HG as [HG HGc]. inversion HGc; subst.
      reshape ((L ++ G1) ++ c :: (map Val b ++ M ++ map Val a) ++ Val y :: D ++ R).
      apply wp_bind. apply wp_move_to_left; [lens|lens|auto|]. apply wp_ret. split; [|lens].
      exists a, (y :: b), G1, (Moved :: D). cj; auto; try (simpl in *; lens; fail); try solve_app.
      constructor; auto. discriminate.
Qed.
End Segments.
