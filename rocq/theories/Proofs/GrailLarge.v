(** grail_sort on more than 2^31 elements with fewer than four keys. *)
From Coq Require Import List Arith Lia Permutation Bool ZArith.
From Verif Require Import Spec.Order Lang.Mem Spec.Sorts Proofs.Wp Proofs.OrderLib Proofs.MergeSort Model.Insertion Model.Grail Proofs.GrailMerge Proofs.GrailSmart Proofs.GrailBlocks Proofs.GrailBuffers Proofs.GrailCombine Proofs.GrailChunks Proofs.GrailBuild Proofs.GrailKeys Proofs.GrailSort Proofs.Stable Proofs.Examples.
From Verif Require Spec.Probes Proofs.ProbesB.
Import ListNotations.
Local Arguments Z.sub : simpl never.
Local Arguments Nat.mul : simpl never.
Local Arguments Nat.pow : simpl never.
Local Arguments Nat.ltb : simpl never.

Lemma sub_zero : forall a rest, Spec.Probes.subseq rest (repeat 1 a ++ [0; 0]) -> In 0 rest -> exists r, rest = r ++ [0].
Proof.
  intros a rest H HI. replace (repeat 1 a ++ [0; 0]) with ((repeat 1 a ++ [0]) ++ [0]) in H by now rewrite <- app_assoc.
  apply ProbesB.subseq_snoc_inv in H as [H|(r & -> & _)]; [|eauto]. apply ProbesB.subseq_snoc_inv in H as [H|(r & -> & _)]; [|eauto].
  exfalso. clear - H HI. revert rest H HI. induction a as [|a IH]; simpl; intros rest H HI.
  - inversion H; subst. destruct HI.
  - inversion H; subst; [eauto|]. destruct HI as [E|HI]; [discriminate|]. eauto.
Qed.

Section Large.
Variables (a : nat) (triv : bool) (buffer_size : nat -> nat).
Hypothesis Ha : (Z.of_nat a = 2 ^ 31 - 1)%Z.
Notation lt := (by_proj Nat.ltb (fun x : nat => x)).
Let xs := repeat 1 a ++ [0; 0].

Lemma lt_swo : strict_weak_order lt.
Proof. apply swo_by_proj. apply nat_ltb_swo. Qed.

Lemma xs_in : forall z, In z xs -> z = 1 \/ z = 0.
Proof. intros z Hz. apply in_app_iff in Hz as [Hz|[<-|[<-|[]]]]; auto. apply repeat_spec in Hz. auto. Qed.

Lemma grail_large_wp : wp (grail_sorter Nat.ltb (fun x => x) triv buffer_size 0 (length xs)) (fun _ m => exists l, m = map Val l /\ ~ sorted lt l) (map Val xs).
Proof.
  pose proof lt_swo as HW. assert (length xs = a + 2) as LX by (unfold xs; rewrite app_length, repeat_length; reflexivity).
  unfold grail_sorter. apply wp_bind. unfold make_buffer, wp at 1. apply wp_bind. rewrite Nat.sub_0_r, map_length. set (n := buffer_size (length xs)). set (X := repeat (@Moved nat) n).
  unfold common_sort. rewrite Nat.sub_0_r. destruct (Nat.ltb_spec (length xs) 16); [lia|]. apply wp_bind. apply block_length_wp. intros j Hj HJ. pose proof (pow2_pos j) as Pj. apply wp_bind.
  assert (exists a', a = S a') as (a' & EA). { exists (a - 1). lia. }
  assert (xs = 1 :: repeat 1 a' ++ [0; 0]) as EX by (unfold xs; rewrite EA; reflexivity).
  replace (map Val xs ++ X) with ([] ++ map Val (1 :: repeat 1 a' ++ [0; 0]) ++ X) by now rewrite EX. apply find_keys_wp; auto. { now rewrite <- EX. } { apply Nat.add_pos_r; auto. }
  intros k rest HS HSM Hk HCV HSUB. rewrite <- EX in HSM, HSUB. simpl app.
  pose proof (same_perm _ HW _ _ HSM) as HP.
  assert (forall z, In z (k ++ rest) -> z = 1 \/ z = 0) as HIN. { intros z Hz. apply xs_in. eapply Permutation_in; [symmetry; exact HP|auto]. }
  assert (NoDup k) as HND. { clear - HS. induction HS as [|x k HF HS IH]; constructor; auto. intros HI. specialize (HF x HI). unfold by_proj in HF. rewrite Nat.ltb_irrefl in HF. discriminate. }
  assert (length k <= 2) as Lk. { change 2 with (length [1; 0]). apply NoDup_incl_length; auto. intros z Hz. destruct (HIN z) as [->| ->]; simpl; auto. apply in_app_iff; auto. }
  assert (4 <= 2 ^ j) as P4. { change 4 with (2 ^ 2). apply Nat.pow_le_mono_r; lia. }
  assert ((length k <? (length xs - 1) / 2 ^ j + 1 + 2 ^ j) && (length k <? 4) = true) as ->. { apply andb_true_iff. generalize ((length xs - 1) / 2 ^ j). generalize dependent (2 ^ j). intros p _ _ P4 q. split; apply Nat.ltb_lt; lia. }
  assert (count_occ Nat.eq_dec xs 0 = 2) as C0. { unfold xs. rewrite count_occ_app. rewrite (proj1 (count_occ_not_In Nat.eq_dec _ 0)); [reflexivity|]. intros HI. apply repeat_spec in HI. discriminate. }
  assert (In 0 rest) as H0. { apply (count_occ_In Nat.eq_dec). rewrite (Permutation_count_occ Nat.eq_dec) in HP. rewrite HP, count_occ_app in C0. pose proof (proj1 (NoDup_count_occ Nat.eq_dec k) HND 0). lia. }
  destruct (sub_zero a rest HSUB H0) as (r & ->).
  assert (length (k ++ r) = a + 1) as LKR. { apply Permutation_length in HP. rewrite !app_length in *. simpl length in *. lia. }
  rewrite (app_assoc k r [0]) in *.
  replace (length xs) with (length ((k ++ r) ++ [0])) at 1 by (symmetry; now apply Permutation_length).
  change (map Val ((k ++ r) ++ [0]) ++ X) with ([] ++ map Val ((k ++ r) ++ [0]) ++ X).
  apply lazy_stable_sort_large_wp; auto; try (simpl length; lia).
  assert (In 1 (k ++ r)) as H1.
  { assert (In 1 ((k ++ r) ++ [0])) as HI. { eapply Permutation_in; [exact HP|]. rewrite EX. simpl. auto. } apply in_app_iff in HI as [HI|[HI|[]]]; [auto|discriminate]. }
  set (out := ssort lt (k ++ r) ++ ssort lt [0]).
  apply wp_bind. assert (length out = length xs) as LO. { unfold out. rewrite app_length, !ssort_length. simpl length. lia. }
  simpl app. replace (map Val out ++ X) with (map Val out ++ X ++ []) by now rewrite app_nil_r.
  replace n with (length X) at 1 by apply repeat_length.
  apply destroy_n_seg; auto. { apply Forall_forall. intros c Hc. apply repeat_spec in Hc. subst c. discriminate. } { rewrite map_length. lia. }
  rewrite app_nil_r. unfold X. rewrite ?repeat_length. apply wp_dealloc; auto. { rewrite map_length. lia. }
  exists out. split; auto. intros HSO. unfold out in HSO. apply sorted_app in HSO as (_ & _ & HC).
  assert (In 1 (ssort lt (k ++ r))) as HI. { eapply Permutation_in; [apply ssort_perm|exact H1]. }
  specialize (HC 1 0 HI ltac:(simpl; auto)). discriminate HC.
Qed.
End Large.
