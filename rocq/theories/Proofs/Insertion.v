From Coq Require Import List Arith Lia Permutation Bool.
From Verif Require Import Spec.Order Lang.Mem Spec.Sorts Proofs.Wp Proofs.OrderLib Model.Insertion.
Import ListNotations.

Section Insertion.
Context {A T : Type} (comp : T -> T -> bool) (proj : A -> T).
Notation lt := (by_proj comp proj).

(** [s1 ++ x :: s2] is [s1 ++ s2] with [x] inserted after the last element not greater. *)
Definition inserts (x : A) (s1 s2 : list A) : Prop :=
  (forall y, In y s2 -> lt x y = true) /\
  (s1 = [] \/ exists s y, s1 = s ++ [y] /\ lt x y = false).

Lemma insertion_sift_wp : forall pre post s y s2 x,
  (forall z, In z (y :: s2) -> lt x z = true) ->
  wp (insertion_sift comp proj (length pre) x (length pre + S (length s)) (length pre + length s))
     (fun sift m' => exists s1 s3, s ++ [y] ++ s2 = s1 ++ s3 /\ inserts x s1 s3 /\
        sift = length pre + length s1 /\
        m' = pre ++ map Val s1 ++ Moved :: map Val s3 ++ post)
     (pre ++ map Val s ++ Val y :: Moved :: map Val s2 ++ post).
Proof.
  intros pre post s y s2 x Hx. unfold insertion_sift.
  apply wp_loop' with
    (I := fun '(sift, sift_1) m => exists s' y' s2',
        s ++ [y] ++ s2 = s' ++ [y'] ++ s2' /\
        (forall z, In z (y' :: s2') -> lt x z = true) /\
        sift = length pre + S (length s') /\ sift_1 = length pre + length s' /\
        m = pre ++ map Val s' ++ Val y' :: Moved :: map Val s2' ++ post)
    (mu := fun '(sift, _) => sift - length pre).
  - exists s, y, s2. auto.
  - lia.
  - intros [sift sift_1] m (s' & y' & s2' & E & Hx' & -> & -> & ->).
    apply wp_bind. reshape ((pre ++ map Val s') ++ Val y' :: [] ++ Moved :: map Val s2' ++ post).
    apply (wp_move_to_right (pre ++ map Val s') []); try (lens; fail); [congruence|].
    simpl app.
    replace (length pre + S (length s') - 1) with (length pre + length s') by lia.
    destruct (Nat.eqb_spec (length pre + length s') (length pre)) as [E0|E0].
    + apply wp_ret. destruct s'; [|simpl in E0; lia].
      exists [], (y' :: s2'). simpl in *. repeat split; auto.
      now rewrite app_nil_r.
    + destruct (exists_last (l := s')) as (s'' & y'' & ->).
      { intros ->. simpl in E0. lia. }
      apply wp_bind. reshape ((pre ++ map Val s'') ++ Val y'' :: Moved :: map Val (y' :: s2') ++ post).
      apply wp_get_at. { lens. }
      destruct (comp (proj x) (proj y'')) eqn:C; apply wp_ret.
      * split; [|lens]. exists s'', y'', (y' :: s2').
        rewrite E. repeat split; auto.
        -- solve_app.
        -- simpl. intros z [<-|Hz]; auto.
        -- lens.
        -- lens.
        -- solve_app.
      * exists (s'' ++ [y'']), (y' :: s2'). repeat split; auto.
        -- right. exists s'', y''. auto.
        -- solve_app.
Qed.

Lemma insertion_step_wp : forall pre post s x, s <> [] ->
  wp (insertion_step comp proj (length pre) (length pre + length s))
     (fun _ m' => exists s1 s2, s = s1 ++ s2 /\ inserts x s1 s2 /\
        m' = pre ++ map Val (s1 ++ x :: s2) ++ post)
     (pre ++ map Val (s ++ [x]) ++ post).
Proof.
  intros pre post s x Hs. unfold insertion_step.
  rewrite map_app. simpl map.
  destruct (exists_last Hs) as (s' & y & ->). clear Hs.
  apply wp_bind.
  reshape ((pre ++ map Val s' ++ [Val y]) ++ Val x :: post).
  apply wp_get_at; [lens|]. apply wp_bind.
  reshape ((pre ++ map Val s') ++ Val y :: Val x :: post).
  apply wp_get_at; [lens|].
  destruct (comp (proj x) (proj y)) eqn:C.
  - apply wp_bind.
    reshape ((pre ++ map Val s' ++ [Val y]) ++ Val x :: post).
    apply wp_take_at; [lens|]. apply wp_bind.
    reshape (pre ++ map Val s' ++ Val y :: Moved :: map Val [] ++ post).
    eapply wp_mono.
    + replace (length pre + length (s' ++ [y]) - 1) with (length pre + length s') by lens.
      replace (length pre + length (s' ++ [y])) with (length pre + S (length s')) by lens.
      apply insertion_sift_wp. intros z [<-|[]]. exact C.
    + intros sift m (s1 & s3 & E & Hi & -> & ->).
      reshape ((pre ++ map Val s1) ++ Moved :: map Val s3 ++ post). apply wp_put_at; [lens|congruence|].
      exists s1, s3. split; [now rewrite <- E, app_nil_r|]. split; auto.
      solve_app.
  - apply wp_ret. exists (s' ++ [y]), []. rewrite app_nil_r. repeat split; simpl; try tauto.
    + right. eauto.
    + solve_app.
Qed.

Lemma inserts_ssort : strict_weak_order lt -> forall xs s1 s2 x,
  ssort lt xs = s1 ++ s2 -> inserts x s1 s2 -> s1 ++ x :: s2 = ssort lt (xs ++ [x]).
Proof.
  intros HW xs s1 s2 x E [H2 H1].
  pose proof (ssort_sorted lt HW xs) as HS. rewrite E in HS.
  apply sorted_app in HS as (HS1 & HS2 & H12).
  apply stable_is_ssort; auto.
  - apply sorted_app. split; auto. split.
    + apply sorted_cons. split; auto. intros b Hb. apply lt_le; auto.
    + assert (forall y, In y s1 -> le lt y x) as Hle.
      { destruct H1 as [->|(s & y & -> & Hy)]; [simpl; tauto|].
        intros z Hz. apply in_app_or in Hz as [Hz|[<-|[]]]; auto.
        apply sorted_app in HS1 as (_ & _ & Hsy).
        eapply (le_trans lt HW); [apply Hsy; simpl; eauto|]. auto. }
      intros z y Hz [<-|Hy]; auto.
  - eapply same_trans.
    + apply same_app; [apply ssort_same; auto|apply same_refl].
    + rewrite E, <- app_assoc. apply same_app; [apply same_refl|].
      apply (same_swap lt HW s2 [x]). intros u v Hu [<-|[]]. auto.
Qed.

(** The outer loop, with an invariant [R done current] on the elements treated so far. *)
Lemma insertion_sort_wp : forall (R : list A -> list A -> Prop),
  R [] [] ->
  (forall x, R [x] [x]) ->
  (forall xs s x s1 s2, R xs s -> s = s1 ++ s2 -> inserts x s1 s2 -> R (xs ++ [x]) (s1 ++ x :: s2)) ->
  (forall xs s, R xs s -> length s = length xs) ->
  forall pre xs post,
  wp (insertion_sort comp proj (length pre) (length pre + length xs))
     (fun _ m' => exists ys, R xs ys /\ m' = pre ++ map Val ys ++ post)
     (pre ++ map Val xs ++ post).
Proof.
  intros R Rnil Rone Rstep Rlen pre xs post. unfold insertion_sort.
  destruct (Nat.eqb_spec (length pre) (length pre + length xs)) as [E|E].
  { apply wp_ret. destruct xs; [|simpl in E; lia]. exists []. auto. }
  apply wp_loop' with
    (I := fun cur m => exists xs1 xs2 s, xs = xs1 ++ xs2 /\ R xs1 s /\ s <> [] /\
        cur = length pre + length xs1 /\ m = pre ++ map Val (s ++ xs2) ++ post)
    (mu := fun cur => length pre + length xs - cur).
  - destruct xs as [|x xs]; [simpl in E; lia|].
    exists [x], xs, [x]. simpl. repeat split; auto; try congruence. lia.
  - lens.
  - intros cur m (xs1 & xs2 & s & -> & HR & Hs & -> & ->).
    destruct (Nat.eqb_spec (length pre + length xs1) (length pre + length (xs1 ++ xs2))) as [E1|E1].
    + apply wp_ret. destruct xs2; [|lens]. rewrite app_nil_r. exists s.
      rewrite app_nil_r. auto.
    + destruct xs2 as [|x xs2]; [lens|].
      apply wp_bind.
      reshape (pre ++ map Val (s ++ [x]) ++ map Val xs2 ++ post).
      rewrite <- (Rlen _ _ HR).
      eapply wp_mono; [apply insertion_step_wp; auto|].
      intros [] m (s1 & s2 & -> & Hi & ->). apply wp_ret.
      pose proof (Rlen _ _ HR) as HL. split; [|lens].
      exists (xs1 ++ [x]), xs2, (s1 ++ x :: s2). split; [now rewrite <- app_assoc|].
      split. { eapply Rstep; eauto. }
      split. { destruct s1; simpl; congruence. }
      split. { rewrite (Rlen _ _ HR). lens. }
      solve_app.
Qed.

Lemma insertion_sorts_stably : strict_weak_order comp -> sorts_stably lt (insertion_sorter comp proj).
Proof.
  intros HC pre xs post. pose proof (swo_by_proj _ _ comp proj HC) as HW.
  destruct (proj1 (wp_ok _ _ _ _)
    (insertion_sort_wp (fun xs s => s = ssort lt xs) eq_refl (fun x => eq_refl)
      (fun xs s x s1 s2 HR E Hi => inserts_ssort HW xs s1 s2 x (eq_trans (eq_sym HR) E) Hi)
      (fun xs s E => eq_trans (f_equal (@length A) E) (ssort_length lt xs))
      pre xs post)) as ([] & m & E & ys & -> & ->).
  eexists. split; [exact E|]. now apply ssort_stable.
Qed.

Lemma insertion_permutes : permutes (insertion_sorter comp proj).
Proof.
  intros pre xs post.
  destruct (proj1 (wp_ok _ _ _ _)
    (insertion_sort_wp (@Permutation A) (perm_nil _) (fun x => Permutation_refl _)
      (fun xs s x s1 s2 HR E Hi => Permutation_trans (Permutation_sym (Permutation_cons_append xs x))
         (Permutation_trans (perm_skip x (eq_ind _ (fun l => Permutation xs l) HR _ E)) (Permutation_middle s1 s2 x)))
      (fun xs s HP => eq_sym (Permutation_length HP))
      pre xs post)) as ([] & m & E & ys & HP & ->).
  eauto.
Qed.
End Insertion.
