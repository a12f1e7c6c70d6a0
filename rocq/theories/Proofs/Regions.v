(** Regions of the memory: what a program leaves in some of them, and that it leaves the others alone. *)
From Coq Require Import List Arith Lia Permutation Bool.
From Verif Require Import Spec.Order Lang.Mem Spec.Sorts Proofs.Wp Proofs.OrderLib Model.Rotate Proofs.Indirect Proofs.HalfMerge Proofs.Search.
Import ListNotations.
Local Arguments nth_error : simpl never.
Local Arguments upd : simpl never.

Lemma skipn_skipn : forall X (l : list X) a b, skipn a (skipn b l) = skipn (b + a) l.
Proof. induction l as [|x l IH]; intros a [|b]; simpl; auto; now rewrite ?skipn_nil. Qed.

Section Regions.
Context {A : Type}.
Implicit Types (m : mem A) (xs ys : list A).

(** The cells from [f] on hold [xs]. *)
Definition seg m (f : nat) xs : Prop := f + length xs <= length m /\ forall i x, nth_error xs i = Some x -> nth_error m (f + i) = Some (Val x).
(** [n] cells from [f] on hold objects, moved from or not. *)
Definition lives m (f n : nat) : Prop := f + n <= length m /\ forall i, f <= i < f + n -> live_at m i.
(** Nothing changes outside of [P]. *)
Definition only (P : nat -> Prop) m m' : Prop := length m' = length m /\ forall i, ~ P i -> nth_error m' i = nth_error m i.
Definition within (f n i : nat) : Prop := f <= i < f + n.

Lemma only_refl : forall P m, only P m m.
Proof. split; auto. Qed.
Lemma only_trans : forall (P : nat -> Prop) m1 m2 m3, only P m1 m2 -> only P m2 m3 -> only P m1 m3.
Proof. intros P m1 m2 m3 [L1 H1] [L2 H2]. split; [congruence|]. intros i Hi. rewrite H2, H1; auto. Qed.
Lemma only_weaken : forall (P P' : nat -> Prop) m m', only P m m' -> (forall i, P i -> P' i) -> only P' m m'.
Proof. intros P P' m m' [L H] HP. split; auto. Qed.
Lemma only_upd : forall (P : nat -> Prop) m i c, P i -> only P m (upd i c m).
Proof. intros. split; [apply upd_length|]. intros j Hj. apply nth_upd_ne. intros ->. auto. Qed.

Lemma seg_nil : forall m f, f <= length m -> seg m f [].
Proof. intros. split; [simpl; lia|]. intros [|i] x Hx; discriminate. Qed.
Lemma seg_app : forall m f xs ys, seg m f (xs ++ ys) <-> seg m f xs /\ seg m (f + length xs) ys.
Proof.
  intros m f xs ys. unfold seg. rewrite app_length. split.
  - intros [HL H]. split; (split; [lia|]); intros i x Hx.
    + apply H. rewrite nth_error_app1; auto. now apply nth_lt in Hx.
    + rewrite <- Nat.add_assoc. apply H. rewrite nth_error_app2 by lia. now replace (length xs + i - length xs) with i by lia.
  - intros [[HL1 H1] [HL2 H2]]. split; [lia|]. intros i x Hx. destruct (Nat.lt_ge_cases i (length xs)).
    + rewrite nth_error_app1 in Hx by auto. auto.
    + rewrite nth_error_app2 in Hx by auto. specialize (H2 _ _ Hx). now replace (f + length xs + (i - length xs)) with (f + i) in H2 by lia.
Qed.
Lemma seg_cons : forall m f x xs, seg m f (x :: xs) <-> nth_error m f = Some (Val x) /\ seg m (S f) xs.
Proof.
  intros m f x xs. split.
  - intros [HL H]. split; [|split].
    + specialize (H 0 x eq_refl). now rewrite Nat.add_0_r in H.
    + simpl in HL. lia.
    + intros i y Hy. specialize (H (S i) y Hy). now replace (S f + i) with (f + S i) by lia.
  - intros [Hx [HL H]]. split; [simpl; lia|]. intros [|i] y Hy.
    + injection Hy as <-. now rewrite Nat.add_0_r.
    + replace (f + S i) with (S f + i) by lia. now apply H.
Qed.
Lemma seg_get : forall m f xs i x, seg m f xs -> nth_error xs i = Some x -> nth_error m (f + i) = Some (Val x).
Proof. intros m f xs i x [_ H]. auto. Qed.
Lemma seg_len : forall m f xs, seg m f xs -> f + length xs <= length m.
Proof. intros m f xs [H _]. auto. Qed.
Lemma seg_lives : forall m f xs, seg m f xs -> lives m f (length xs).
Proof.
  intros m f xs [HL H]. split; auto. intros i Hi. destruct (nth_some _ xs (i - f)) as (x & Hx); [lia|]. apply H in Hx. replace (f + (i - f)) with i in Hx by lia.
  exists (Val x). split; auto. discriminate.
Qed.
Lemma lives_sub : forall m f n f' n', lives m f n -> f <= f' -> f' + n' <= f + n -> lives m f' n'.
Proof. intros m f n f' n' [HL H] H1 H2. split; [lia|]. intros i Hi. apply H. lia. Qed.
Lemma lives_app : forall m f n1 n2, lives m f n1 -> lives m (f + n1) n2 -> lives m f (n1 + n2).
Proof. intros m f n1 n2 [L1 H1] [L2 H2]. split; [lia|]. intros i Hi. destruct (Nat.lt_ge_cases i (f + n1)); [apply H1|apply H2]; lia. Qed.

Lemma seg_only : forall (P : nat -> Prop) m m' f xs, only P m m' -> (forall i, within f (length xs) i -> ~ P i) -> seg m f xs -> seg m' f xs.
Proof.
  intros P m m' f xs [L H] HP [HL HS]. split; [lia|]. intros i x Hx. rewrite H; auto. apply HP. apply nth_lt in Hx. unfold within. lia.
Qed.
Lemma lives_only : forall (P : nat -> Prop) m m' f n, only P m m' -> (forall i, within f n i -> ~ P i) -> lives m f n -> lives m' f n.
Proof. intros P m m' f n [L H] HP [HL HS]. split; [lia|]. intros i Hi. unfold live_at. rewrite H; auto. now apply HS. Qed.

Lemma seg_decomp : forall m f xs, seg m f xs -> exists pre post, m = pre ++ map Val xs ++ post /\ length pre = f.
Proof.
  intros m f xs [HL H]. exists (firstn f m), (skipn (f + length xs) m). split; [|rewrite firstn_length; lia].
  rewrite <- (firstn_skipn f m) at 1. f_equal. rewrite <- (firstn_skipn (length xs) (skipn f m)). f_equal.
  - apply nth_ext. intros i. rewrite nth_error_map. destruct (Nat.lt_ge_cases i (length xs)) as [Hi|Hi].
    + rewrite nth_firstn_lt by auto. rewrite nth_skipn. destruct (nth_some _ xs i) as (x & Hx); auto. rewrite (H _ _ Hx), Hx. reflexivity.
    + rewrite (proj2 (nth_error_None xs i)) by auto. apply nth_error_None. rewrite firstn_length. lia.
  - rewrite skipn_skipn. reflexivity.
Qed.
Lemma seg_intro : forall pre xs post f, f = length pre -> seg (pre ++ map Val xs ++ post) f xs.
Proof.
  intros pre xs post f ->. split; [rewrite !app_length, map_length; lia|]. intros i x Hx. rewrite nth_error_app2 by lia.
  replace (length pre + i - length pre) with i by lia. rewrite nth_error_app1 by (rewrite map_length; now apply nth_lt in Hx). now rewrite nth_error_map, Hx.
Qed.

(** A program on a range, as a program on a region. *)
Lemma runs_seg : forall (R : list A -> list A -> Prop) prog, runs R prog -> (forall xs ys, R xs ys -> length ys = length xs) ->
  forall m f xs l (Q : unit -> mem A -> Prop), seg m f xs -> l = f + length xs ->
  (forall ys m', R xs ys -> seg m' f ys -> only (within f (length xs)) m m' -> Q tt m') -> wp (prog f l) Q m.
Proof.
  intros R prog HP HL m f xs l Q HS -> HQ. apply seg_decomp in HS as (pre & post & -> & <-).
  destruct (HP pre xs post) as (ys & E & HR). eapply wp_run; [exact E|]. pose proof (HL _ _ HR) as HLy.
  apply (HQ ys); auto.
  - now apply seg_intro.
  - split; [rewrite !app_length, !map_length; lia|]. intros i Hi. unfold within in Hi.
    destruct (Nat.lt_ge_cases i (length pre)). { now rewrite !nth_error_app1. }
    rewrite !(nth_error_app2 pre) by auto. rewrite !nth_error_app2 by (rewrite map_length; lia). now rewrite !map_length, HLy.
Qed.

Lemma live_only : forall (P : nat -> Prop) m m' i, only P m m' -> ~ P i -> live_at m i -> live_at m' i.
Proof. intros P m m' i [_ H] HP HL. unfold live_at. now rewrite H. Qed.
Lemma lives_at : forall m f n i, lives m f n -> f <= i < f + n -> live_at m i.
Proof. intros m f n i [_ H]. auto. Qed.
Lemma lives_change : forall m m' f n, lives m f n -> length m' = length m -> (forall i, within f n i -> live_at m i -> live_at m' i) -> lives m' f n.
Proof. intros m m' f n [HL H] E HC. split; [lia|]. intros i Hi. apply HC; auto. Qed.
Lemma val_live : forall m i a, nth_error m i = Some (Val a) -> live_at m i.
Proof. intros m i a H. exists (Val a). split; auto. discriminate. Qed.

(** One move: the whole effect. *)
Lemma wp_move_one : forall i j a m (Q : unit -> mem A -> Prop), i <> j -> nth_error m i = Some (Val a) -> live_at m j ->
  (forall m', nth_error m' j = Some (Val a) -> (forall k, live_at m k -> live_at m' k) -> only (fun k => k = i \/ k = j) m m' -> Q tt m') -> wp (move_to i j) Q m.
Proof.
  intros i j a m Q HN Hi (c & Hc & Hr) HQ. eapply wp_move_to; eauto.
  assert (length (upd j (Val a) (upd i Moved m)) = length m) as HL by now rewrite !upd_length.
  assert (nth_error (upd j (Val a) (upd i Moved m)) j = Some (Val a)) as Hj. { rewrite nth_upd_eq; auto. rewrite upd_length. now apply nth_lt in Hc. }
  apply HQ; auto.
  - intros k (ck & Hk & Hkr). destruct (Nat.eq_dec k j) as [->|]; [eapply val_live; eauto|]. unfold live_at. rewrite nth_upd_ne by auto.
    destruct (Nat.eq_dec k i) as [->|]; [exists Moved; split; [apply nth_upd_eq; now apply nth_lt in Hi|discriminate]|]. rewrite nth_upd_ne by auto. eauto.
  - split; auto. intros k Hk. rewrite !nth_upd_ne; auto.
Qed.

(** Moves from a region to another one. *)
Lemma move_range_region : forall xs m f l r (Q : nat -> mem A -> Prop), seg m f xs -> l = f + length xs -> lives m r (length xs) ->
  (f + length xs <= r \/ r + length xs <= f) ->
  (forall m', seg m' r xs -> lives m' f (length xs) -> only (fun i => within f (length xs) i \/ within r (length xs) i) m m' -> Q (r + length xs) m') ->
  wp (move_range f l r) Q m.
Proof.
  intros xs m f l r Q HS -> HL HD HQ. unfold move_range.
  apply wp_loop' with
    (I := fun '(f1, r1) m1 => exists a b, xs = a ++ b /\ f1 = f + length a /\ r1 = r + length a /\
       seg m1 (f + length a) b /\ seg m1 r a /\ lives m1 f (length xs) /\ lives m1 r (length xs) /\
       only (fun i => within f (length xs) i \/ within r (length xs) i) m m1)
    (mu := fun '(f1, _) => f + length xs - f1).
  - exists [], xs. simpl. rewrite !Nat.add_0_r. cj; auto. { apply seg_nil. destruct HL. lia. } { now apply seg_lives. } { apply only_refl. }
  - lia.
  - intros [f1 r1] m1 (a & b & -> & -> & -> & S1 & S2 & L1 & L2 & HO). rewrite app_length in *. destruct (Nat.eqb_spec (f + length a) (f + (length a + length b))) as [E|E].
    + apply wp_ret. destruct b; [|simpl in E; lia]. rewrite app_nil_r in *. replace (r + length a) with (r + (length a + length (@nil A))) by (simpl; lia). auto.
    + destruct b as [|x b]; [simpl in E; lia|]. apply seg_cons in S1 as [Hx S1].
      apply wp_bind. eapply wp_move_one; [simpl in *; lia|exact Hx|eapply lives_at; [exact L2|simpl; lia]|].
      intros m2 Hr HLV HO2. apply wp_ret. simpl in HD, L1, L2, HO |- *. split; [|lia].
      exists (a ++ [x]), b. rewrite app_length. simpl. cj; try lia.
      * now rewrite <- app_assoc.
      * replace (f + (length a + 1)) with (S (f + length a)) by lia. eapply seg_only; [exact HO2| |exact S1]. unfold within. intros i Hi. lia.
      * apply seg_app. split; [eapply seg_only; [exact HO2| |exact S2]; unfold within; intros i Hi; lia|]. apply seg_cons. split; auto. apply seg_nil.
        destruct HO2 as [-> _]. destruct L2. lia.
      * eapply lives_change; eauto. apply HO2.
      * eapply lives_change; eauto. apply HO2.
      * eapply only_trans; [exact HO|]. eapply only_weaken; [exact HO2|]. unfold within. intros i Hi. lia.
Qed.
End Regions.
