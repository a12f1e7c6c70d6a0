(** Comparators that are no strict weak orders. *)
From Coq Require Import List Arith Lia Bool.
From Verif Require Import Lang.Mem Model.Basic Model.Pdq Proofs.Wp.
Import ListNotations.

Section Constant.
Context {A T : Type} (comp : T -> T -> bool) (proj : A -> T) (a : A) (n : nat).
Hypothesis Refl : comp (proj a) (proj a) = true.
Hypothesis Hn : 24 <= n.
Let m : mem A := map Val (repeat a n).

Lemma nth_const : forall i, i < n -> nth_error m i = Some (Val a).
Proof. intros i Hi. unfold m. rewrite nth_error_map. rewrite (nth_error_nth' _ a) by (rewrite repeat_length; lia). cbn. now rewrite nth_repeat. Qed.

Lemma upd_const : forall i, i < n -> upd i (Val a) m = m.
Proof.
  intros i Hi. pose proof (nth_const i Hi) as H. revert i Hi H. generalize m. intros l i _. revert i.
  induction l as [|c l IH]; intros [|i] H; try discriminate; cbn in *; [congruence|f_equal; auto].
Qed.

Lemma swap_const : forall i j, i < n -> j < n -> swap i j m = Ok tt m.
Proof. intros i j Hi Hj. unfold swap. rewrite !nth_const by auto. now rewrite !upd_const by auto. Qed.

Lemma swap_if_const : forall i j, i < n -> j < n -> iter_swap_if comp proj i j m = Ok tt m.
Proof. intros i j Hi Hj. unfold iter_swap_if, less_at, bind, get, ret. rewrite !nth_const by auto. rewrite Refl. now apply swap_const. Qed.

Lemma sort3_const : forall i j k, i < n -> j < n -> k < n -> iter_sort3 comp proj i j k m = Ok j m.
Proof. intros i j k Hi Hj Hk. unfold iter_sort3, bind. rewrite !swap_if_const by auto. reflexivity. Qed.

Lemma choose_pivot_const : choose_pivot comp proj 0 n m = Ok tt m.
Proof.
  unfold choose_pivot. rewrite Nat.sub_0_r. assert (n / 2 < n) by (apply Nat.div_lt; lia). assert (n / 2 * 2 <= n) by (rewrite Nat.mul_comm; apply Nat.mul_div_le; lia).
  assert (12 <= n / 2) by (apply Nat.div_le_lower_bound; lia). destruct (_ <? _); unfold bind; rewrite !sort3_const by lia; [|reflexivity]. apply swap_const; lia.
Qed.

(** The scan finds no element that stops it. *)
Lemma scan_up_const : forall fuel i (m' : mem A), n - i <= fuel -> length m' = n -> (forall k, i < k < n -> nth_error m' k = Some (Val a)) ->
  loop (S fuel) (fun first => let first := S first in let* x := get first in if comp (proj x) (proj a) then ret (inl first) else ret (inr first)) i m' = (UB : res A nat).
Proof.
  induction fuel as [|fuel IH]; intros i m' Hf HL HN; rewrite ?Nat.sub_diag in *.
  - cbn. unfold bind, get. assert (nth_error m' (S i) = None) as -> by (apply nth_error_None; lia). reflexivity.
  - cbn [loop]. unfold bind at 1 2. unfold get. destruct (Nat.lt_ge_cases (S i) n) as [H|H].
    + rewrite HN by lia. rewrite Refl. cbv beta iota delta [ret]. apply IH; auto; try lia. intros k Hk. apply HN. lia.
    + assert (nth_error m' (S i) = None) as -> by (apply nth_error_None; lia). reflexivity.
Qed.

Theorem pdq_constant : forall lenient branchless, pdq_sorter comp proj lenient branchless 0 n m = UB.
Proof.
  intros lenient branchless. unfold pdq_sorter, pdqsort. rewrite Nat.sub_0_r. destruct (Nat.ltb_spec n 2); [lia|].
  cbn [pdqsort_loop]. rewrite Nat.sub_0_r. unfold insertion_sort_threshold. destruct (Nat.ltb_spec n 24); [lia|].
  unfold bind at 1. rewrite choose_pivot_const. unfold bind at 1. unfold ret at 1.
  assert (take 0 m = Ok a (upd 0 Moved m)) as HT by (unfold take; now rewrite nth_const by lia).
  assert (scan_up (fun x => comp (proj x) (proj a)) (n - 0) 0 (upd 0 Moved m) = UB) as HS.
  { unfold scan_up. apply scan_up_const; try lia.
    - rewrite upd_length. unfold m. rewrite map_length. apply repeat_length.
    - intros k Hk. rewrite nth_upd_ne by lia. apply nth_const. lia. }
  unfold bind at 1. destruct branchless.
  - unfold partition_right_branchless. unfold bind at 1. rewrite HT. unfold bind at 1. rewrite HS. reflexivity.
  - unfold partition_right. unfold bind at 1. rewrite HT. unfold bind at 1. rewrite HS. reflexivity.
Qed.
End Constant.
