From Coq Require Import List Arith Lia Permutation Bool.
From Verif Require Import Spec.Order Lang.Mem Spec.Sorts Proofs.Wp Proofs.OrderLib Model.Basic.
Import ListNotations.

(** Obtain the value at index [k] of a full range. *)
Ltac rdv H k x Hx := destruct (proj2 H k ltac:(lia)) as (x & Hx).

Section Basic.
Context {A T : Type} (comp : T -> T -> bool) (proj : A -> T).
Notation lt := (by_proj comp proj).

Lemma wp_less_at : forall i j x y (Q : bool -> mem A -> Prop) m,
  nth_error m i = Some (Val x) -> nth_error m j = Some (Val y) ->
  Q (lt x y) m -> wp (less_at comp proj i j) Q m.
Proof.
  intros. unfold less_at. apply wp_bind. eapply wp_get; eauto.
  apply wp_bind. eapply wp_get; eauto.
Qed.

Lemma wp_iter_swap_if : forall i j x y (Q : unit -> mem A -> Prop) m,
  nth_error m i = Some (Val x) -> nth_error m j = Some (Val y) ->
  Q tt (if lt y x then upd j (Val x) (upd i (Val y) m) else m) ->
  wp (iter_swap_if comp proj i j) Q m.
Proof.
  intros. unfold iter_swap_if. apply wp_bind. eapply wp_less_at; eauto.
  destruct (lt y x). eapply wp_swap; eauto. apply wp_ret; auto.
Qed.

(** [mn] is the position of a minimum of [f, l). *)
Definition is_min (f l : nat) (m : mem A) (mn : nat) : Prop :=
  f <= mn < l /\ exists v, nth_error m mn = Some (Val v) /\ range_all (fun a => lt a v = false) f l m.

Lemma unchecked_min_element_wp : forall f l m, f < l -> full f l m ->
  wp (unchecked_min_element comp proj f l)
     (fun mn m' => m' = m /\ f <= mn < l /\
        (strict_weak_order lt -> is_min f l m mn)) m.
Proof.
  intros f l m Hfl Hf. unfold unchecked_min_element.
  destruct (Nat.eqb_spec f l); [lia|].
  apply wp_loop' with
    (I := fun '(i, mn) m' => m' = m /\ f <= i < l /\ f <= mn <= i /\
       (strict_weak_order lt -> is_min f (S i) m mn))
    (mu := fun '(i, _) => l - i).
  - repeat split; try lia. rdv Hf f v Hv. exists v. split; auto.
    intros k a Hk Ha. replace k with f in Ha by lia.
    replace a with v by congruence. apply lt_irrefl; auto.
  - lia.
  - intros [i mn] m' (-> & Hi & Hm & HM).
    destruct (Nat.eqb_spec (S i) l) as [E|E].
    + apply wp_ret. split; auto. split; [lia|]. subst l; auto.
    + apply wp_bind. rdv Hf (S i) x Hx. rdv Hf mn y Hy.
      eapply wp_less_at; eauto. apply wp_ret.
      split; [|lia]. split; auto. split; [lia|]. split.
      { destruct (lt x y); lia. }
      intros HW. destruct (HM HW) as (_ & v & Hv & Hall).
      assert (v = y) by congruence. subst v.
      destruct (lt x y) eqn:C.
      * split; [lia|]. exists x. split; auto. intros k a Hk Ha.
        destruct (Nat.eq_dec k (S i)) as [->|Hne].
        -- assert (a = x) by congruence. subst. apply lt_irrefl; auto.
        -- assert (lt a y = false) by (apply (Hall k); auto; lia).
           eapply (le_trans lt HW x y a); auto. apply lt_asym; auto.
      * split; [lia|]. exists y. split; auto. intros k a Hk Ha.
        destruct (Nat.eq_dec k (S i)) as [->|Hne].
        -- congruence.
        -- apply (Hall k); auto; lia.
Qed.

(** Extending a sorted range at its end by elements that are all at least as large. *)
Lemma sorted_range_empty : forall f l (m : mem A), l <= S f -> sorted_range lt f l m.
Proof. intros f l m H i j x y. lia. Qed.

Lemma selection_wp : forall f l m, f <= l -> full f l m ->
  wp (selection_sort comp proj f l) (fun _ m' => pm f l m m' /\
       (strict_weak_order lt -> sorted_range lt f l m')) m.
Proof.
  intros f l m Hfl Hf. unfold selection_sort.
  apply wp_loop' with
    (I := fun it m' => f <= it <= l /\ pm f l m m' /\
       (strict_weak_order lt ->
          forall i j x y, f <= i < it -> i < j < l ->
             nth_error m' i = Some (Val x) -> nth_error m' j = Some (Val y) -> lt y x = false))
    (mu := fun it => l - it).
  - split; [lia|]. split; [apply pm_refl|]. intros. lia.
  - lia.
  - intros it m' (Hit & HP & HS).
    destruct (Nat.eqb_spec it l) as [E|E].
    + apply wp_ret. split; auto. intros HW i j x y ? ? ?. apply HS; auto; lia.
    + apply wp_bind. pose proof (pm_full _ _ _ _ HP Hf) as Hf'.
      eapply wp_mono. { apply unchecked_min_element_wp. lia. eapply full_sub; eauto. lia. }
      intros mn m1 (-> & Hmn & HM). apply wp_bind.
      rdv Hf' it x Hx. rdv Hf' mn y Hy.
      eapply wp_swap; eauto. apply wp_ret.
      split; [|lia]. split; [lia|]. split.
      { eapply pm_trans; [exact HP|]. apply pm_swap; auto; lia. }
      intros HW i j u v Hi Hj Hu Hv.
      destruct (HM HW) as (_ & w & Hw & Hall). assert (w = y) by congruence. subst w.
      assert (length m' = length m) as HL by (eapply pm_length; eauto).
      assert (it < length m' /\ mn < length m') as [? ?] by (split; eapply nth_lt; eauto).
      upd_cases; try (apply (HS HW i j); auto; lia); try (apply (HS HW i it); auto; lia); try (apply (HS HW i mn); auto; lia);
      try (apply (Hall j); auto; lia); try (apply (Hall it); auto; lia).
      assert (it = mn) by lia. assert (u = y) by congruence. subst u. apply (Hall j); auto; lia.
Qed.

Lemma selection_sorts : strict_weak_order comp -> sorts lt (selection_sorter comp proj).
Proof.
  intros HC. apply sorts_intro. intros f l m Hfl Hf.
  eapply wp_mono; [apply selection_wp; auto|]. intros _ m' [? ?]. split; auto.
  apply H0. now apply swo_by_proj.
Qed.

Lemma selection_permutes : permutes (selection_sorter comp proj).
Proof.
  apply permutes_intro. intros f l m Hfl Hf.
  eapply wp_mono; [apply selection_wp; auto|]. intros _ m' [? ?]; auto.
Qed.

(** ** bubble sort *)
Lemma bubble_pass_wp : forall pre xs post size, length xs = S size ->
  wp (bubble_pass comp proj (length pre) size)
     (fun _ m' => exists ys c, m' = pre ++ map Val (ys ++ [c]) ++ post /\
        Permutation xs (ys ++ [c]) /\
        (strict_weak_order lt -> same_order_in_classes lt xs (ys ++ [c]) /\
           forall y, In y ys -> le lt y c))
     (pre ++ map Val xs ++ post).
Proof.
  intros pre xs post size HL. unfold bubble_pass.
  apply wp_loop' with
    (I := fun '(i, current, next) m => i <= size /\ current = length pre + i /\ next = S current /\
       exists a c b, m = pre ++ map Val (a ++ c :: b) ++ post /\ length a = i /\
         Permutation xs (a ++ c :: b) /\
         (strict_weak_order lt -> same_order_in_classes lt xs (a ++ c :: b) /\
           forall y, In y a -> le lt y c))
    (mu := fun '(i, _, _) => size - i).
  - split; [lia|]. split; [lia|]. split; [lia|].
    destruct xs as [|x xs]; [discriminate|]. exists [], x, xs. simpl. repeat split; auto.
    intros y [].
  - lia.
  - intros [[i cur] nxt] m (Hi & -> & -> & a & c & b & -> & Ha & HP & HS).
    pose proof (Permutation_length HP) as HL'. lens.
    destruct (Nat.ltb_spec i size) as [Hlt|Hge].
    + destruct b as [|d b]; [lens|].
      apply wp_bind.
      reshape ((pre ++ map Val a) ++ Val c :: [] ++ Val d :: map Val b ++ post).
      eapply wp_iter_swap_if.
      { apply nth_at. lens. }
      { simpl app. apply (nth_at ((pre ++ map Val a) ++ [Val c])) || 
        (replace ((pre ++ map Val a) ++ Val c :: Val d :: map Val b ++ post)
          with (((pre ++ map Val a) ++ [Val c]) ++ Val d :: map Val b ++ post) by solve_app;
         apply nth_at; lens). }
      apply wp_ret. split; [|lia]. split; [lia|]. split; [lia|]. split; [lia|].
      destruct (lt d c) eqn:C.
      * exists (a ++ [d]), c, b. split.
        { rewrite upd_at by lens. simpl app.
          replace ((pre ++ map Val a) ++ Val d :: Val d :: map Val b ++ post)
            with (((pre ++ map Val a) ++ [Val d]) ++ Val d :: map Val b ++ post) by solve_app.
          rewrite upd_at by lens. solve_app. }
        split; [lens|].
        rewrite <- app_assoc. simpl app.
        split. { rewrite HP. apply Permutation_app_head. apply perm_swap. }
        intros HW. destruct (HS HW) as [HS1 HS2]. split.
        { eapply same_trans; [exact HS1|]. apply same_app; [apply same_refl|].
          apply (same_app lt [c;d] b [d;c] b); [|apply same_refl].
          apply (same_swap lt HW [c] [d]). intros x y [<-|[]] [<-|[]]. auto. }
        intros y Hy. apply in_app_or in Hy as [Hy|[<-|[]]]; auto. apply lt_le; auto.
      * exists (a ++ [c]), d, b. split. { solve_app. } split; [lens|].
        rewrite <- app_assoc. simpl app. split; auto.
        intros HW. destruct (HS HW) as [HS1 HS2]. split; auto.
        intros y Hy. apply in_app_or in Hy as [Hy|[<-|[]]]; auto.
        eapply (le_trans lt HW); [apply HS2; auto|auto].
    + apply wp_ret. destruct b; [|lens]. exists a, c. auto.
Qed.

Lemma bubble_sort_wp : forall pre xs post,
  wp (bubble_sort comp proj (length pre) (length xs))
     (fun _ m' => exists ys, m' = pre ++ map Val ys ++ post /\ Permutation xs ys /\
        (strict_weak_order lt -> ys = ssort lt xs))
     (pre ++ map Val xs ++ post).
Proof.
  intros pre xs post. unfold bubble_sort.
  destruct (Nat.ltb_spec (length xs) 2) as [Hlt|Hge].
  { apply wp_ret. exists xs. split; auto. split; auto. intros HW.
    destruct xs as [|x [|y xs]]; simpl in Hlt; try lia; auto. }
  apply wp_loop' with
    (I := fun size m => exists us vs, m = pre ++ map Val (us ++ vs) ++ post /\
        length us = size /\ 1 <= size /\ Permutation xs (us ++ vs) /\
        (strict_weak_order lt -> same_order_in_classes lt xs (us ++ vs) /\ sorted lt vs /\
            forall u v, In u us -> In v vs -> le lt u v))
    (mu := fun size => size).
  - exists xs, []. rewrite app_nil_r. repeat split; auto; try lia; try apply sorted_nil.
    simpl. tauto.
  - lia.
  - intros size m (us & vs & -> & HL & Hs & HP & HS).
    destruct (Nat.eqb_spec (size - 1) 0) as [E|E].
    + apply wp_ret. exists (us ++ vs). split; auto. split; auto. intros HW.
      destruct (HS HW) as (H1 & H2 & H3). apply stable_is_ssort; auto.
      destruct us as [|u [|u' us]]; simpl in HL; try lia.
      simpl. apply sorted_cons. split; auto. intros b Hb. apply H3; simpl; auto.
    + apply wp_bind. reshape (pre ++ map Val us ++ map Val vs ++ post).
      eapply wp_mono. { apply bubble_pass_wp. rewrite HL. lia. }
      intros _ m' (ys & c & -> & HP' & HS'). apply wp_ret. split; [|lia].
      exists ys, (c :: vs).
      pose proof (Permutation_length HP') as HL'. lens.
      split. { solve_app. } split; [lia|]. split; [lia|]. split.
      { rewrite HP, HP'. rewrite <- app_assoc. reflexivity. }
      intros HW. destruct (HS HW) as (H1 & H2 & H3). destruct (HS' HW) as (H4 & H5).
      split. { eapply same_trans; [exact H1|].
        replace (ys ++ c :: vs) with ((ys ++ [c]) ++ vs) by (now rewrite <- app_assoc).
        apply same_app; [auto|apply same_refl]. }
      split.
      { apply sorted_cons. split; auto. intros b Hb. apply H3; auto.
        eapply Permutation_in; [symmetry; exact HP'|]. apply in_or_app. simpl; auto. }
      intros u v Hu [<-|Hv]; auto. apply H3; auto.
      eapply Permutation_in; [symmetry; exact HP'|]. apply in_or_app. auto.
Qed.
End Basic.
