(** Proofs about the probes: enc and block. *)
From Coq Require Import List Arith Lia Permutation Bool.
From Verif Require Import Spec.Order Spec.Probes Lang.Mem Spec.Sorts Proofs.Wp Proofs.OrderLib Proofs.Search Model.Search
  Model.Heap Model.Rotate Model.Indirect Proofs.Indirect Model.Probes Proofs.ProbesA Proofs.ProbesC Proofs.ProbesE.
Import ListNotations.

Section Encroach.
Context {A : Type} (lt : A -> A -> bool).
Hypothesis HW : strict_weak_order lt.

Definition inside (a b : A * A) : Prop := lt (fst a) (fst b) = true /\ lt (snd b) (snd a) = true.
Inductive nested : list (A * A) -> Prop :=
| nested_nil : nested []
| nested_cons : forall l ls, lt (snd l) (fst l) = false -> (forall l', In l' ls -> inside l l') -> nested ls -> nested (l :: ls).

Lemma encroach_In : forall ls x l, In l (encroach lt ls x) ->
  (fst l = x \/ exists l', In l' ls /\ fst l = fst l') /\ (snd l = x \/ exists l', In l' ls /\ snd l = snd l').
Proof.
  induction ls as [|[h t] ls IH]; intros x l H; simpl in H.
  - destruct H as [<-|[]]. auto.
  - assert (forall l', In l' ls -> (exists l'', In l'' ((h, t) :: ls) /\ fst l' = fst l'') /\ exists l'', In l'' ((h, t) :: ls) /\ snd l' = snd l'') as K.
    { intros l' H'. split; exists l'; split; auto; right; auto. }
    destruct (lt x t); simpl in H; [destruct (lt h x); simpl in H|]; destruct H as [<-|H]; simpl.
    + split; right; exists (h, t); split; auto; left; auto.
    + apply IH in H as [[H1|(l1 & H1 & E1)] [H2|(l2 & H2 & E2)]]; rewrite ?E1, ?E2; split; auto; right; eauto.
    + split; auto. right. exists (h, t); split; auto; left; auto.
    + destruct (K l H). auto.
    + split; auto. right. exists (h, t); split; auto; left; auto.
    + destruct (K l H). auto.
Qed.

Lemma encroach_nested : forall ls x, nested ls -> nested (encroach lt ls x).
Proof.
  induction ls as [|[h t] ls IH]; intros x H; simpl.
  - constructor; simpl; auto; [apply (lt_irrefl lt HW)|intros _ []].
  - inversion H as [|? ? H1 H2 H3]; subst. simpl in *.
    destruct (lt x t) eqn:E1; simpl; [destruct (lt h x) eqn:E2; simpl|].
    + constructor; auto. intros l' Hl'. apply encroach_In in Hl' as [Hf Hs]. split; simpl.
      * destruct Hf as [->|(l1 & I1 & ->)]; auto. now apply H2.
      * destruct Hs as [->|(l1 & I1 & ->)]; auto. now apply H2.
    + constructor; simpl; auto.
      * apply (lt_asym lt HW). exact E1.
      * intros l' Hl'. destruct (H2 l' Hl') as [G1 G2]. split; simpl in *; auto.
        exact (le_lt_trans lt HW x h (fst l') E2 G1).
    + constructor; simpl; auto.
      * exact (le_trans lt HW h t x H1 E1).
      * intros l' Hl'. destruct (H2 l' Hl') as [G1 G2]. split; simpl in *; auto.
        exact (lt_le_trans lt HW (snd l') t x G2 E1).
Qed.

Lemma encroach_length : forall ls x, length (encroach lt ls x) = length ls \/
  (encroach lt ls x = ls ++ [(x, x)] /\ forall l, In l ls -> lt (fst l) (snd l) = true).
Proof.
  induction ls as [|[h t] ls IH]; intros x; simpl.
  - auto.
  - destruct (lt x t) eqn:E1; simpl; auto. destruct (lt h x) eqn:E2; simpl; auto.
    destruct (IH x) as [->|[-> H]]; auto. right. split; auto. intros l [<-|Hl]; auto. simpl.
    exact (lt_trans lt HW h x t E2 E1).
Qed.

Definition enc_bound (ls : list (A * A)) (done : nat) : Prop :=
  2 * length ls <= done + 1 /\ (2 * length ls <= done \/ exists l' l, ls = l' ++ [l] /\ lt (fst l) (snd l) = false).
Lemma enc_bound_step : forall ls x done, enc_bound ls done -> enc_bound (encroach lt ls x) (S done).
Proof.
  intros ls x done [H1 H2]. unfold enc_bound. destruct (encroach_length ls x) as [->|[-> H]]; [lia|].
  rewrite app_length. simpl. destruct H2 as [H2|(l' & l & -> & H2)].
  - split; [lia|]. right. exists ls, (x, x). split; auto. apply (lt_irrefl lt HW).
  - rewrite H in H2; [discriminate|]. apply in_or_app. right. left. auto.
Qed.
Lemma encroaching_lists_bound : forall xs, 2 * length (encroaching_lists lt xs) <= length xs + 1.
Proof.
  intros xs. unfold encroaching_lists.
  assert (forall xs ls done, enc_bound ls done -> enc_bound (fold_left (encroach lt) xs ls) (done + length xs)) as K.
  { induction xs0 as [|x xs0 IH]; intros ls done H; simpl; [now rewrite Nat.add_0_r|].
    replace (done + S (length xs0)) with (S done + length xs0) by lia. apply IH. now apply enc_bound_step. }
  apply (K xs [] 0). split; simpl; auto.
Qed.

Lemma encroaching_lists_sorted : forall xs, sorted lt xs -> length (encroaching_lists lt xs) <= 1.
Proof.
  intros [|x xs] HS; [simpl; auto|]. unfold encroaching_lists. cbn [fold_left encroach].
  assert (forall xs h t, sorted lt (t :: xs) -> length (fold_left (encroach lt) xs [(h, t)]) <= 1) as K.
  { clear x xs HS. induction xs as [|y xs IH]; intros h t HS; [simpl; auto|]. apply sorted_cons in HS as [HS1 HS2]; auto.
    cbn [fold_left encroach]. rewrite (HS1 y) by (left; auto). simpl negb. cbv iota. now apply IH. }
  now apply K.
Qed.

(** First fit, by the position of the list. *)
Definition misfit (x : A) (l : A * A) : Prop := lt x (snd l) = true /\ lt (fst l) x = true.
Lemma encroach_at_tail : forall ls it h t x, nth_error ls it = Some (h, t) -> lt x t = false ->
  (forall l, In l (firstn it ls) -> misfit x l) -> encroach lt ls x = upd it (h, x) ls.
Proof.
  induction ls as [|[h' t'] ls IH]; intros [|it] h t x Hn Hf Hm; simpl in Hn; try discriminate.
  - inversion Hn; subst. simpl. now rewrite Hf.
  - simpl in Hm. destruct (Hm _ (or_introl eq_refl)) as [G1 G2]. simpl in *. rewrite G1, G2. simpl. f_equal.
    eapply IH; eauto.
Qed.
Lemma encroach_at_head : forall ls it h t x, nth_error ls it = Some (h, t) -> lt x t = true -> lt h x = false ->
  (forall l, In l (firstn it ls) -> misfit x l) -> encroach lt ls x = upd it (x, t) ls.
Proof.
  induction ls as [|[h' t'] ls IH]; intros [|it] h t x Hn Ht Hf Hm; simpl in Hn; try discriminate.
  - inversion Hn; subst. simpl. now rewrite Ht, Hf.
  - simpl in Hm. destruct (Hm _ (or_introl eq_refl)) as [G1 G2]. simpl in *. rewrite G1, G2. simpl. f_equal.
    eapply IH; eauto.
Qed.
Lemma encroach_new : forall ls x, (forall l, In l ls -> misfit x l) -> encroach lt ls x = ls ++ [(x, x)].
Proof.
  induction ls as [|[h t] ls IH]; intros x H; auto. simpl. destruct (H _ (or_introl eq_refl)) as [G1 G2]. simpl in *.
  rewrite G1, G2. simpl. f_equal. apply IH. auto.
Qed.
Lemma nested_nth : forall ls, nested ls -> forall i j a b, i < j -> nth_error ls i = Some a -> nth_error ls j = Some b -> inside a b.
Proof.
  induction 1 as [|l ls H1 H2 H3 IH]; intros [|i] [|j] a b Hij Ha Hb; simpl in *; try discriminate; try lia.
  - inversion Ha; subst. apply H2. eapply nth_error_In; eauto.
  - eapply (IH i j); eauto. lia.
Qed.
Lemma nested_ht : forall ls l, nested ls -> In l ls -> lt (snd l) (fst l) = false.
Proof. induction 1; intros []; subst; auto. Qed.
End Encroach.

Section EncProbe.
Context {A T : Type} (comp : T -> T -> bool) (proj : A -> T).
Hypothesis HC : strict_weak_order comp.
Notation lt := (by_proj comp proj).
Let HW : strict_weak_order lt := swo_by_proj _ _ comp proj HC.

Lemma firstn_In_nth : forall X (l : list X) k x, In x (firstn k l) -> exists i, i < k /\ nth_error l i = Some x.
Proof.
  intros X l k x H. apply In_nth_error in H as (i & Hi). exists i.
  assert (i < length (firstn k l)) by (apply nth_error_Some; congruence). rewrite firstn_length in H.
  split; [lia|]. rewrite <- Hi. symmetry. apply nth_firstn_lt. lia.
Qed.

Lemma enc_lower_bound_wp : forall opt ls last value (c : T -> T -> bool) acc (Q : nat -> mem A -> Prop) m,
  let P := fun l : A * A => c (proj (acc l)) value in
  (forall i j a b, i < j -> nth_error (ls ++ [last]) i = Some a -> nth_error (ls ++ [last]) j = Some b -> P b = true -> P a = true) ->
  P last = false ->
  (forall it l, nth_error (ls ++ [last]) it = Some l -> P l = false ->
    (forall l', In l' (firstn it (ls ++ [last])) -> P l' = true) -> Q it m) ->
  wp (enc_lower_bound proj opt (ls ++ [last]) value c acc) Q m.
Proof.
  intros opt ls last value c acc Q m P Hm HL HQ. unfold enc_lower_bound.
  assert (forall u v, part_at P ls u v -> Q (length u) m) as K.
  { intros u v [-> H]. destruct H as [H1 H2].
    - intros i j x y Hij Hx Hy Hp.
      eapply (Hm i j); eauto; try lia; rewrite nth_error_app1; auto; eapply nth_lt; eauto.
    - destruct v as [|l v].
      + rewrite app_nil_r in *. apply (HQ (length u) last); auto.
        * rewrite nth_error_app2 by lia. now rewrite Nat.sub_diag.
        * intros l' Hl'. rewrite firstn_app, Nat.sub_diag, firstn_all in Hl'. simpl in Hl'. rewrite app_nil_r in Hl'. auto.
      + apply (HQ (length u) l).
        * rewrite <- app_assoc. rewrite nth_error_app2 by lia. now rewrite Nat.sub_diag.
        * apply H2. left. auto.
        * intros l' Hl'. rewrite <- app_assoc, firstn_app, Nat.sub_diag, firstn_all in Hl'. simpl in Hl'. rewrite app_nil_r in Hl'. auto. }
  rewrite app_length. simpl length. rewrite Nat.add_sub.
  destruct opt; apply wp_on_vector; rewrite map_app.
  - apply (lower_monobound_n_wp c (fun l => proj (acc l)) ls [] (map Val [last])); auto.
  - apply (lower_bound_n_wp c (fun l => proj (acc l)) ls [] (map Val [last])); auto.
Qed.

Lemma firstn_snoc : forall X (l : list X) k x, nth_error l k = Some x -> firstn (S k) l = firstn k l ++ [x].
Proof. induction l as [|a l IH]; intros [|k] x H; simpl in H; try discriminate; [inversion H; auto|]. simpl. f_equal. now apply IH. Qed.

Lemma probe_enc_wp : forall opt pre xs post (Q : nat -> mem A -> Prop),
  Q (length (encroaching_lists lt xs) - 1) (pre ++ map Val xs ++ post) ->
  wp (probe_enc comp proj opt (length pre) (length pre + length xs)) Q (pre ++ map Val xs ++ post).
Proof.
  intros opt pre xs post Q HQ. unfold probe_enc.
  destruct ((length pre =? length pre + length xs) || (S (length pre) =? length pre + length xs)) eqn:E0.
  { apply wp_ret. apply orb_true_iff in E0. rewrite !Nat.eqb_eq in E0.
    pose proof (encroaching_lists_bound lt HW xs) as HB.
    replace (length (encroaching_lists lt xs) - 1) with 0 in HQ by lia. exact HQ. }
  apply orb_false_iff in E0 as [E0 E1]. apply Nat.eqb_neq in E0, E1.
  destruct (nth_some _ xs 0) as (x0 & Hx0); [lia|].
  apply wp_bind. replace (get (length pre)) with (@get A (length pre + 0)) by (f_equal; lia). eapply wp_get_list; eauto.
  apply wp_bind.
  apply wp_loop' with (mu := fun '(first, ls) => length pre + length xs - first)
    (I := fun '(first, ls) m => exists c, first = length pre + c /\ c <= length xs /\ 
       ls = encroaching_lists lt (firstn c xs) /\ ls <> [] /\ nested lt ls /\ m = pre ++ map Val xs ++ post).
  - exists 1. cj; auto; try lia.
    + destruct xs; [discriminate|]. simpl in Hx0. inversion Hx0; subst. reflexivity.
    + discriminate.
    + apply (encroach_nested lt HW [] x0). constructor.
  - lia.
  - intros [first ls] m (c & -> & Hc & Hls & Hne & Hnest & ->).
    destruct (Nat.eqb_spec (length pre + c) (length pre + length xs)) as [E|E].
    { apply wp_ret. apply wp_ret. rewrite Hls. replace c with (length xs) by lia. rewrite firstn_all. exact HQ. }
    destruct (nth_some _ xs c) as (x & Hx); [lia|].
    apply wp_bind. eapply wp_get_list; eauto.
    destruct (exists_last Hne) as (l0 & last & El).
    assert (nth_error ls (length ls - 1) = Some last) as HL.
    { rewrite El, app_length. simpl. rewrite Nat.add_sub, nth_error_app2, Nat.sub_diag by lia. auto. }
    apply wp_bind. eapply wp_rd; eauto.
    assert (forall ls', ls' = encroach lt ls x -> ls' <> [] -> forall (R : (nat * list (A * A)) + list (A * A) -> mem A -> Prop),
      ((exists c', S (length pre + c) = length pre + c' /\ c' <= length xs /\ ls' = encroaching_lists lt (firstn c' xs) /\ ls' <> [] /\
        nested lt ls' /\ pre ++ map Val xs ++ post = pre ++ map Val xs ++ post) /\
        length pre + length xs - S (length pre + c) < length pre + length xs - (length pre + c) -> R (inl (S (length pre + c), ls')) (pre ++ map Val xs ++ post)) ->
      wp (ret (inl (S (length pre + c), ls'))) R (pre ++ map Val xs ++ post)) as Hstep.
    { intros ls' -> Hne' R HR. apply wp_ret. apply HR. split; [|lia]. exists (S c). cj; auto; try lia.
      - rewrite (firstn_snoc _ _ _ _ Hx). unfold encroaching_lists. rewrite fold_left_app. simpl. now rewrite Hls.
      - now apply encroach_nested. }
    assert (forall i a, i < length ls - 1 -> nth_error ls i = Some a -> inside lt a last) as Hin
      by (intros; eapply (nested_nth lt ls Hnest i (length ls - 1)); eauto).
    assert (forall l, In l ls -> l = last \/ inside lt l last) as Hall.
    { intros l Hl. apply In_nth_error in Hl as (i & Hi). pose proof (nth_lt _ _ _ Hi) as Hlt.
      destruct (Nat.eq_dec i (length ls - 1)) as [->|N]; [left; congruence|]. right. apply (Hin i); auto. lia. }
    assert (lt (snd last) (fst last) = false) as Hht by (apply (nested_ht lt ls); auto; eapply nth_error_In; eauto).
    assert (forall it l ls', nth_error ls it = Some l -> ls' = upd it l ls -> ls' <> []) as Hupd.
    { intros it l ls' H -> Hu. apply (f_equal (@length _)) in Hu. rewrite upd_length in Hu. simpl in Hu.
      apply nth_lt in H. lia. }
    change (comp (proj x) (proj (snd last))) with (lt x (snd last)).
    change (comp (proj (fst last)) (proj x)) with (lt (fst last) x).
    destruct (lt x (snd last)) eqn:Et; cbn [negb]; [destruct (lt (fst last) x) eqn:Eh; cbn [negb]|].
    + apply Hstep.
      * rewrite encroach_new; auto. intros l Hl. destruct (Hall l Hl) as [->|[G1 G2]]; [split; auto|].
        split; [exact (lt_trans lt HW _ _ _ Et G2)|exact (lt_trans lt HW _ _ _ G1 Eh)].
      * intros H. apply app_eq_nil in H as [_ H]. discriminate.
      * intros H. exact H.
    + apply wp_bind. rewrite El at 1. apply enc_lower_bound_wp; rewrite <- ?El.
      * intros i j a b Hij Ha Hb Hp. destruct (nested_nth lt ls Hnest i j a b Hij Ha Hb) as [G1 _].
        exact (lt_trans lt HW _ _ _ G1 Hp).
      * exact Eh.
      * intros it [h t] Hit Hp Hbef. cbn [fst snd] in Hp. change (lt h x = false) in Hp.
        apply wp_bind. eapply wp_rd; eauto. apply wp_bind. apply wp_wr; [eapply nth_lt; eauto|]. cbn [fst snd].
        assert (forall l, In l ls -> lt x (snd l) = true) as Htl.
        { intros l Hl. destruct (Hall l Hl) as [->|[_ G2]]; auto. exact (lt_trans lt HW _ _ _ Et G2). }
        apply Hstep.
        -- symmetry. eapply encroach_at_head; eauto; [apply (Htl (h, t)); eapply nth_error_In; eauto|].
           intros l Hl. split; [|exact (Hbef l Hl)]. apply Htl. apply firstn_In_nth in Hl as (i & _ & Hi). eapply nth_error_In; eauto.
        -- intros Hu. apply (f_equal (@length _)) in Hu. rewrite upd_length in Hu. simpl in Hu. apply nth_lt in Hit. lia.
        -- intros H. exact H.
    + apply wp_bind. rewrite El at 1. apply enc_lower_bound_wp; rewrite <- ?El.
      * intros i j a b Hij Ha Hb Hp. destruct (nested_nth lt ls Hnest i j a b Hij Ha Hb) as [_ G2].
        exact (lt_trans lt HW _ _ _ Hp G2).
      * exact Et.
      * intros it [h t] Hit Hp Hbef. cbn [fst snd] in Hp. change (lt x t = false) in Hp.
        apply wp_bind. eapply wp_rd; eauto. apply wp_bind. apply wp_wr; [eapply nth_lt; eauto|]. cbn [fst snd].
        apply Hstep.
        -- symmetry. eapply encroach_at_tail; eauto.
           intros l Hl. split; [exact (Hbef l Hl)|].
           assert (lt x (fst last) = false) as G by exact (le_trans lt HW (fst last) (snd last) x Hht Et).
           pose proof (Hbef l Hl) as Hb.
           apply firstn_In_nth in Hl as (i & Hi & Hli). assert (In l ls) as Il by (eapply nth_error_In; eauto).
           destruct (Hall l Il) as [->|[G1 _]]; [|exact (lt_le_trans lt HW _ _ _ G1 G)].
           exfalso. change (lt x (snd last) = true) in Hb. congruence.
        -- intros Hu. apply (f_equal (@length _)) in Hu. rewrite upd_length in Hu. simpl in Hu. apply nth_lt in Hit. lia.
        -- intros H. exact H.
Qed.
End EncProbe.
