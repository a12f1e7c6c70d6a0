(** Proofs about the probes: block. *)
From Coq Require Import List Arith Lia Permutation Bool.
From Verif Require Import Spec.Order Spec.Probes Lang.Mem Spec.Sorts Proofs.Wp Proofs.OrderLib Proofs.Search Model.Search
  Model.Heap Model.Rotate Model.Indirect Proofs.Indirect Model.Probes Proofs.ProbesA Proofs.ProbesC Proofs.ProbesE Proofs.ProbesF Proofs.ProbesH.
Import ListNotations.

Section BlockProbe.
Context {A T : Type} (comp : T -> T -> bool) (proj : A -> T).
Hypothesis HC : strict_weak_order comp.
Notation lt := (by_proj comp proj).
Let HW : strict_weak_order lt := swo_by_proj _ _ comp proj HC.
Variable inner : (T -> T -> bool) -> (nat * A -> T) -> range_prog (nat * A).
Hypothesis Hinner : forall c p, strict_weak_order c -> sorts (by_proj c p) (inner c p).

Lemma diff_equiv : forall x y, comp (proj x) (proj y) || comp (proj y) (proj x) = negb (equivalent lt x y).
Proof. intros x y. unfold equivalent, by_proj. destruct (comp (proj x) (proj y)), (comp (proj y) (proj x)); auto. Qed.

Lemma distinct_pos : forall xs i j x y, distinct lt xs -> nth_error xs i = Some x -> nth_error xs j = Some y ->
  equivalent lt x y = true -> i = j.
Proof.
  intros xs i j x y Hd Hx Hy He. destruct (Nat.lt_trichotomy i j) as [L|[L|L]]; auto.
  - now rewrite (Hd _ _ _ _ L Hx Hy) in He.
  - rewrite (eqv_sym lt) in He. now rewrite (Hd _ _ _ _ L Hy Hx) in He.
Qed.

(** The successor of [k] is broken. *)
Definition broken (xs ys : list A) (sg : nat -> nat) (k : nat) : bool :=
  match nth_error xs (S (sg k)), nth_error ys (S k) with
  | Some x, Some y => negb (equivalent lt x y)
  | _, _ => true
  end.

Lemma probe_block_wp : forall pre xs post (Q : nat -> mem A -> Prop),
  (forall r, r <= block_max_for_size (length xs) ->
     (distinct lt xs -> forall ys, is_sorting_of lt xs ys -> broken_adjacencies lt xs ys r) ->
     Q r (pre ++ map Val xs ++ post)) ->
  wp (probe_block comp proj inner (length pre) (length pre + length xs)) Q (pre ++ map Val xs ++ post).
Proof.
  intros pre xs post Q HQ. unfold probe_block. replace (length pre + length xs - length pre) with (length xs) by lia.
  destruct (Nat.ltb_spec (length xs) 2) as [Hn|Hn].
  { apply wp_ret. apply HQ; [lia|]. intros _ ys [HP _]. exists []. cj; auto; [constructor|].
    intros k. split; [intros []|]. intros (x & y & _ & Hy & _). apply nth_lt in Hy.
    rewrite <- (Permutation_length HP) in Hy. lia. }
  apply wp_bind. apply sorted_its_wp; auto. intros its HPt HS HP. set (ys := map snd its) in *.
  destruct (its_sigma _ _ _ _ HPt) as (sg & Hsg & Hinj & Hsur).
  set (n := length xs) in *.
  assert (length its = n) as HLi by (rewrite <- (map_length snd its); symmetry; apply Permutation_length; auto).
  assert (length ys = n) as HLy by (unfold ys; now rewrite map_length).
  assert (forall k, k < n -> sg k < n /\ nth_error ys k = nth_error xs (sg k)) as Hsg'.
  { intros k Hk. destruct (Hsg k Hk) as (H1 & v & H2 & H3). split; auto. unfold ys. rewrite nth_error_map, H2, H3. reflexivity. }
  destruct (Hsg (n - 1)) as (_ & vl & Hl1 & Hl2); [lia|].
  apply wp_bind. eapply wp_rd; [rewrite HLi; exact Hl1|]. cbn [snd].
  apply wp_loop' with (mu := fun '(k, count) => n - 1 - k)
    (I := fun '(k, count) m => k <= n - 1 /\ count <= k /\ (distinct lt xs -> count = cnt (broken xs ys sg) (seq 0 k)) /\
       m = pre ++ map Val xs ++ post).
  - cj; auto; lia.
  - lia.
  - intros [k count] m (Hk & Hc & Hcount & ->). rewrite HLi.
    destruct (Nat.eqb_spec k (n - 1)) as [->|E].
    + apply wp_ret. apply HQ. { unfold block_max_for_size. destruct (Nat.eqb_spec n 0); lia. }
      intros Hd zs [HPz HSz]. rewrite (Hcount Hd).
      exists (filter (broken xs ys sg) (seq 0 (n - 1))). cj; auto; [apply NoDup_filter, seq_NoDup|].
      assert (length zs = n) as HLz by (symmetry; now apply Permutation_length).
      assert (forall i y z, nth_error ys i = Some y -> nth_error zs i = Some z -> equivalent lt y z = true) as Hyz.
      { intros i y z. apply (sortings_equiv lt HW); auto. etransitivity; [symmetry; exact HP|exact HPz]. }
      intros k. rewrite filter_In, in_seq. split.
      * intros [Hk' Hb]. destruct (nth_some _ zs k) as (x & Hx); [lia|]. destruct (nth_some _ zs (S k)) as (y & Hy); [lia|].
        exists x, y. cj; auto. intros (i & x' & y' & Hx' & Hy' & He1 & He2).
        destruct (Hsg k ltac:(lia)) as (G1 & v & G2 & G3). destruct (Hsg' k ltac:(lia)) as (_ & G4). rewrite G3 in G4.
        destruct (nth_some _ ys (S k)) as (w & Hw); [lia|].
        assert (i = sg k) as ->.
        { apply (distinct_pos xs i (sg k) x' v Hd Hx' G3). eapply (eqv_trans lt HW); [|]; eauto.
          - rewrite (eqv_sym lt). exact He1.
          - rewrite (eqv_sym lt). eapply Hyz; eauto. }
        unfold broken in Hb. rewrite Hy', Hw in Hb. apply negb_true_iff in Hb.
        assert (equivalent lt y' w = true); [|congruence]. rewrite (eqv_sym lt) in He2.
        eapply (eqv_trans lt HW); eauto. rewrite (eqv_sym lt). eapply Hyz; eauto.
      * intros (x & y & Hx & Hy & Hna). pose proof (nth_lt _ _ _ Hy) as Hkl. split; [lia|].
        unfold broken. destruct (nth_error xs (S (sg k))) as [y'|] eqn:Hy'; auto.
        destruct (nth_error ys (S k)) as [w|] eqn:Hw; auto.
        destruct (equivalent lt y' w) eqn:He; auto. exfalso. apply Hna.
        destruct (Hsg k ltac:(lia)) as (G1 & v & G2 & G3). destruct (Hsg' k ltac:(lia)) as (_ & G4). rewrite G3 in G4.
        exists (sg k), v, y'. cj; auto.
        -- rewrite (eqv_sym lt). eapply Hyz; eauto.
        -- rewrite (eqv_sym lt). eapply (eqv_trans lt HW); eauto.
    + destruct (Hsg k ltac:(lia)) as (G1 & v & G2 & G3).
      apply wp_bind. eapply wp_rd; [exact G2|]. cbn [fst snd].
      assert (forall (b : bool), (distinct lt xs -> b = broken xs ys sg k) ->
        (S k <= n - 1 /\ (if b then S count else count) <= S k /\
         (distinct lt xs -> (if b then S count else count) = cnt (broken xs ys sg) (seq 0 (S k))) /\
         pre ++ map Val xs ++ post = pre ++ map Val xs ++ post)) as K.
      { intros b Hb. cj; auto; [lia|destruct b; lia|]. intros Hd. rewrite seq_S, cnt_app, cnt_one, <- (Hcount Hd).
        rewrite Nat.add_0_l. rewrite <- (Hb Hd). destruct b; lia. }
      destruct (Nat.eqb_spec (S (length pre + sg k)) (length pre + n)) as [E1|E1].
      * apply wp_ret. split; [|lia]. apply K. intros Hd. rewrite diff_equiv. unfold broken.
        rewrite (proj2 (nth_error_None xs (S (sg k)))) by (fold n; lia). apply negb_true_iff.
        destruct (equivalent lt v vl) eqn:He; auto. exfalso.
        pose proof (distinct_pos _ _ _ _ _ Hd G3 Hl2 He) as Es. apply Hinj in Es; lia.
      * destruct (Hsg (S k) ltac:(lia)) as (G1' & w & G2' & G3').
        apply wp_bind. eapply wp_rd; [exact G2'|].
        destruct (nth_some _ xs (S (sg k))) as (y & Hy); [fold n; lia|].
        apply wp_bind. replace (S (length pre + sg k)) with (length pre + S (sg k)) by lia. eapply wp_get_list; eauto.
        apply wp_ret. split; [|lia]. apply K. intros Hd. rewrite diff_equiv. unfold broken. rewrite Hy.
        destruct (Hsg' (S k) ltac:(lia)) as (_ & ->). rewrite G3'. reflexivity.
Qed.
End BlockProbe.
