(** The container-aware insertion, selection and merge sorts. *)
From Coq Require Import List Arith Bool Lia Permutation.
From Verif Require Import Spec.Order Lang.Lists Spec.Lists Model.ContainerAware Proofs.OrderLib Proofs.Lists.
Import ListNotations.

Lemma half_lt : forall n, 0 < n -> n / 2 < n.
Proof. intros. apply Nat.div_lt; lia. Qed.

Section Proofs.
Context {A T : Type} (comp : T -> T -> bool) (proj : A -> T).
Hypothesis HC : strict_weak_order comp.
Notation lt := (by_proj comp proj).
Notation ltn := (by_value lt).
Implicit Types (l : list (node A)).

Lemma ltn_swo : strict_weak_order ltn.
Proof. apply by_value_swo, swo_by_proj, HC. Qed.

Lemma list_lower_bound_n_done : forall (cmp : T -> T -> bool) l L0 P1 P2 R value first n, uniq l -> l = L0 ++ P1 ++ P2 ++ R ->
  (forall x, In x P1 -> cmp (proj (snd x)) value = true) -> (forall x, In x P2 -> cmp (proj (snd x)) value = false) ->
  first = pos_at l (length L0) -> n = length P1 + length P2 ->
  list_lower_bound_n proj cmp l first n value = Done (pos_at l (length L0 + length P1)).
Proof.
  intros cmp l L0 P1 P2 R value first n U E H1 H2 -> ->.
  assert (L : length l = length L0 + (length P1 + (length P2 + length R))) by (subst; rewrite !app_length; lia).
  assert (N1 : forall i k a, length L0 <= i < length L0 + length P1 -> nth_error l i = Some (k, a) -> cmp (proj a) value = true).
  { intros i k a Hi N. apply (H1 (k, a)). subst l. rewrite nth_error_app2, nth_error_app1 in N by lia. eapply nth_error_In; eauto. }
  assert (N2 : forall i k a, length L0 + length P1 <= i < length L0 + length P1 + length P2 -> nth_error l i = Some (k, a) -> cmp (proj a) value = false).
  { intros i k a Hi N. apply (H2 (k, a)). subst l. rewrite nth_error_app2, nth_error_app2, nth_error_app1 in N by lia. eapply nth_error_In; eauto. }
  unfold list_lower_bound_n.
  edestruct (iter_rule (pos * nat) pos) with (Q := fun p => p = pos_at l (length L0 + length P1)) (mu := fun s : pos * nat => snd s)
    (Inv := fun s : pos * nat => exists a, fst s = pos_at l a /\ length L0 <= a <= length L0 + length P1 /\
       length L0 + length P1 <= a + snd s <= length L0 + length P1 + length P2) as (x & -> & ->); [| | |reflexivity].
  - intros [p n] (a & Hp & Ha & Hn). simpl in Hp, Hn. subst p. destruct (0 <? n) eqn:En.
    + apply Nat.ltb_lt in En. pose proof (half_lt n En). rewrite advance_pos_at by (auto; lia). cbn [andthen].
      destruct (at_some l (a + n / 2)) as (k & y & N); [lia|]. rewrite (deref_pos_at _ _ _ _ U N). cbn [andthen].
      destruct (cmp (proj y) value) eqn:C.
      * rewrite next_pos_at by (auto; lia). cbn [andthen fst snd]. split; [|lia]. exists (S (a + n / 2)). split; [reflexivity|].
        destruct (Nat.lt_ge_cases (a + n / 2) (length L0 + length P1)); [lia|]. rewrite (N2 (a + n / 2) k y) in C by (auto; lia). discriminate.
      * cbn [fst snd]. split; [|lia]. exists a. split; [reflexivity|].
        destruct (Nat.lt_ge_cases (a + n / 2) (length L0 + length P1)); [|lia]. rewrite (N1 (a + n / 2) k y) in C by (auto; lia). discriminate.
    + apply Nat.ltb_ge in En. f_equal. lia.
  - exists (length L0). simpl. repeat split; lia.
  - simpl. lia.
Qed.

(** A sorted list is split at the place where a value is to be inserted. *)
Lemma insertion_split : forall S (x : node A), sorted ltn S -> exists P1 P2, S = P1 ++ P2 /\
  (forall y, In y P1 -> ltn x y = false) /\ (forall y, In y P2 -> ltn x y = true).
Proof.
  intros S x HS. destruct (split_forall (fun y => negb (ltn x y)) S) as (P1 & P2 & -> & H1 & H2).
  - intros i j y z Hij Y Z Hz. apply negb_true_iff. apply negb_true_iff in Hz. destruct (ltn x y) eqn:E; auto.
    rewrite (lt_le_trans _ ltn_swo x y z) in Hz; auto. unfold le. eapply HS; eauto.
  - exists P1, P2. repeat split; auto; intros y Hy. { apply negb_true_iff. auto. } { apply negb_false_iff. auto. }
Qed.

(** Inserting an element. *)
Lemma insertion_step : forall P1 P2 x R l0, sorted ltn (P1 ++ P2) -> same_order_in_classes ltn l0 ((P1 ++ P2) ++ x :: R) ->
  (forall y, In y P1 -> ltn x y = false) -> (forall y, In y P2 -> ltn x y = true) ->
  sorted ltn (P1 ++ x :: P2) /\ same_order_in_classes ltn l0 ((P1 ++ x :: P2) ++ R).
Proof.
  intros P1 P2 x R l0 HS HR H1 H2. split.
  - apply sorted_app in HS as (A1 & A2 & A3). apply sorted_app. split; [auto|split].
    + apply sorted_cons. split; auto. intros y Hy. apply lt_le; auto. apply ltn_swo.
    + intros y z Hy [<-|Hz]; [apply H1 | apply A3]; auto.
  - eapply same_trans; [apply HR|]. rewrite <- !app_assoc. apply same_app; [apply same_refl|].
    change (P2 ++ x :: R) with (P2 ++ [x] ++ R). change ((x :: P2) ++ R) with (([x] ++ P2) ++ R). rewrite app_assoc. apply same_app; [|apply same_refl].
    apply same_swap; [apply ltn_swo|]. intros y z Hy [<-|[]]. auto.
Qed.

Lemma nth_shift : forall P Q R (x : node A) k, length P + length Q < k -> nth_error (P ++ Q ++ x :: R) k = nth_error (P ++ x :: Q ++ R) k.
Proof.
  intros P Q R x k H. rewrite !nth_error_app2 by lia. replace (x :: Q ++ R) with ((x :: Q) ++ R) by reflexivity.
  rewrite nth_error_app2 by (simpl; lia). simpl length. replace (k - length P - length Q) with (S (k - length P - S (length Q))) by lia. reflexivity.
Qed.
Lemma pos_shift : forall P Q R (x : node A) k, length P + length Q < k -> pos_at (P ++ Q ++ x :: R) k = pos_at (P ++ x :: Q ++ R) k.
Proof. intros. unfold pos_at. now rewrite nth_shift. Qed.


Lemma list_insertion_sort_stable : sorts_list_stably lt (list_insertion_sort comp proj).
Proof.
  intros l0 U0. destruct l0 as [|x0 l1]. { exists []. repeat split; auto. apply sorted_nil. }
  remember (x0 :: l1) as l0 eqn:E0. assert (L0 : length l0 = S (length l1)) by now subst.
  unfold list_insertion_sort, begin_. rewrite pos_at_eqb_end. rewrite (proj2 (Nat.leb_gt _ _)) by lia.
  rewrite next_pos_at by (auto; lia). cbn [andthen].
  edestruct (iter_rule (list (node A) * pos * nat) (list (node A))) with
    (Inv := fun '(l, it, size) => exists S R, l = S ++ R /\ it = pos_at l size /\ size = length S /\ sorted ltn S /\ same_order_in_classes ltn l0 l)
    (mu := fun s : list (node A) * pos * nat => length l0 - snd s) (Q := fun l' => sorted ltn l' /\ same_order_in_classes ltn l0 l') as (l' & -> & HS & HR).
  2: { exists [x0], l1. subst l0. repeat split; auto. apply sorted_one. }
  2: { cbn [snd]. lia. }
  2: { exists l'. split; [reflexivity|]. split; [apply (same_perm ltn ltn_swo _ _ HR) | auto]. }
  intros [[l it] size] (S & R & El & -> & -> & HS & HR). pose proof (same_perm ltn ltn_swo _ _ HR) as HP. pose proof (uniq_perm _ _ HP U0) as U.
  rewrite pos_at_eqb_end. destruct R as [|x R].
  { rewrite app_nil_r in El. subst S. rewrite Nat.leb_refl. auto. }
  assert (Ll : length l = length S + Datatypes.S (length R)) by (rewrite El, app_length; reflexivity). rewrite (Permutation_length HP).
  rewrite (proj2 (Nat.leb_gt _ _)) by lia. destruct x as [i a]. rewrite (deref_pos_at l (length S) i a U) by (rewrite El; apply nth_mid). cbn [andthen].
  destruct (insertion_split S (i, a) HS) as (P1 & P2 & ES & H1 & H2). subst S. rewrite app_length in *.
  unfold list_upper_bound_n. rewrite (list_lower_bound_n_done _ l [] P1 P2 ((i, a) :: R) (proj a) _ _ U); auto.
  2: { rewrite El. now rewrite <- app_assoc. }
  2: { intros y Hy. apply negb_true_iff. apply (H1 y Hy). }
  2: { intros y Hy. apply negb_false_iff. apply (H2 y Hy). }
  cbn [andthen length Nat.add]. rewrite pos_at_eqb by (auto; lia).
  destruct (insertion_step P1 P2 (i, a) R l0 HS) as [HS' HR']; auto. { now rewrite <- El. }
  rewrite next_pos_at by (auto; lia). cbn [andthen]. rewrite <- app_assoc in El.
  destruct (Nat.eqb_spec (length P1) (length P1 + length P2)) as [E|N].
  - cbn [snd]. split; [|lia]. assert (P2 = []) as -> by (destruct P2; auto; simpl in E; lia).
    exists (P1 ++ [(i, a)]), R. rewrite <- app_assoc. split; [exact El|]. split; [f_equal; lia|]. rewrite app_length. cbn [length].
    split; [lia|]. split; auto.
  - rewrite (splice_back l P1 P2 R (i, a)) by auto. cbn [andthen snd]. split; [|lia].
    exists (P1 ++ (i, a) :: P2), R. rewrite <- app_assoc. split; [reflexivity|]. split. { rewrite El. apply pos_shift. lia. }
    rewrite app_length. cbn [length]. split; [lia|]. split; auto. now rewrite <- app_assoc in HR'.
Qed.

Lemma flist_insertion_point_done : forall l P1 P2 R x n, uniq l -> l = P1 ++ P2 ++ R ->
  (forall y, In y P1 -> ltn x y = false) -> (forall y, In y P2 -> ltn x y = true) -> n = length P1 + length P2 ->
  flist_insertion_point comp proj l n (proj (snd x)) = Done (fpos l (length P1)).
Proof.
  intros l P1 P2 R x n U E H1 H2 ->.
  assert (L : length l = length P1 + (length P2 + length R)) by (subst; rewrite !app_length; lia).
  assert (N1 : forall i k a, i < length P1 -> nth_error l i = Some (k, a) -> comp (proj (snd x)) (proj a) = false).
  { intros i k a Hi N. apply (H1 (k, a)). subst l. rewrite nth_error_app1 in N by lia. eapply nth_error_In; eauto. }
  assert (N2 : forall i k a, length P1 <= i < length P1 + length P2 -> nth_error l i = Some (k, a) -> comp (proj (snd x)) (proj a) = true).
  { intros i k a Hi N. apply (H2 (k, a)). subst l. rewrite nth_error_app2, nth_error_app1 in N by lia. eapply nth_error_In; eauto. }
  unfold flist_insertion_point.
  edestruct (iter_rule (pos * nat) pos) with (Q := fun p => p = fpos l (length P1)) (mu := fun s : pos * nat => snd s)
    (Inv := fun s : pos * nat => exists a, fst s = fpos l a /\ a <= length P1 /\
       length P1 <= a + snd s <= length P1 + length P2) as (y & -> & ->); [| | |reflexivity].
  - intros [p n] (a & Hp & Ha & Hn). cbn [fst snd] in Hp, Hn. subst p. destruct (0 <? n) eqn:En.
    + apply Nat.ltb_lt in En. pose proof (half_lt n En). rewrite advance_fpos by (auto; lia). cbn [andthen].
      rewrite next_fpos by (auto; lia). cbn [andthen].
      destruct (at_some l (a + n / 2)) as (k & y & N); [lia|]. rewrite (deref_pos_at _ _ _ _ U N). cbn [andthen].
      destruct (comp (proj (snd x)) (proj y)) eqn:C; cbn [negb fst snd]; (split; [|lia]).
      * exists a. split; [reflexivity|].
        destruct (Nat.lt_ge_cases (a + n / 2) (length P1)); [|lia]. rewrite (N1 (a + n / 2) k y) in C by (auto; lia). discriminate.
      * exists (S (a + n / 2)). split; [reflexivity|].
        destruct (Nat.lt_ge_cases (a + n / 2) (length P1)); [lia|]. rewrite (N2 (a + n / 2) k y) in C by (auto; lia). discriminate.
    + apply Nat.ltb_ge in En. f_equal. lia.
  - exists 0. cbn [fst snd fpos]. repeat split; lia.
  - cbn [snd]. lia.
Qed.

Lemma flist_insertion_sort_stable : sorts_list_stably lt (flist_insertion_sort comp proj).
Proof.
  intros l0 U0. destruct l0 as [|x0 l1]. { exists []. repeat split; auto. apply sorted_nil. }
  remember (x0 :: l1) as l0 eqn:E0. assert (L0 : length l0 = S (length l1)) by now subst.
  unfold flist_insertion_sort. change (next l0 Before) with (Done (pos_at l0 0)). cbn [andthen]. rewrite pos_at_eqb_end. rewrite (proj2 (Nat.leb_gt _ _)) by lia.
  edestruct (iter_rule (list (node A) * pos * nat) (list (node A))) with
    (Inv := fun '(l, it, size) => exists S R, l = S ++ R /\ it = fpos l size /\ size = length S /\ sorted ltn S /\ same_order_in_classes ltn l0 l)
    (mu := fun s : list (node A) * pos * nat => length l0 - snd s) (Q := fun l' => sorted ltn l' /\ same_order_in_classes ltn l0 l') as (l' & -> & HS & HR).
  2: { exists [x0], l1. subst l0. repeat split; auto. apply sorted_one. }
  2: { cbn [snd]. lia. }
  2: { exists l'. split; [reflexivity|]. split; [apply (same_perm ltn ltn_swo _ _ HR) | auto]. }
  intros [[l it] size] (S & R & El & -> & -> & HS & HR). pose proof (same_perm ltn ltn_swo _ _ HR) as HP. pose proof (uniq_perm _ _ HP U0) as U.
  assert (Ll : length l = length S + length R) by (rewrite El, app_length; reflexivity). rewrite (Permutation_length HP).
  rewrite next_fpos by (auto; lia). cbn [andthen].
  rewrite pos_at_eqb_end. destruct R as [|[i a] R].
  { rewrite app_nil_r in El. subst S. rewrite Nat.leb_refl. auto. }
  cbn [length] in Ll. rewrite (proj2 (Nat.leb_gt _ _)) by lia. rewrite (deref_pos_at l (length S) i a U) by (rewrite El; apply nth_mid). cbn [andthen].
  destruct (insertion_split S (i, a) HS) as (P1 & P2 & ES & H1 & H2). subst S. rewrite app_length in *. rewrite <- app_assoc in El.
  rewrite (flist_insertion_point_done l P1 P2 ((i, a) :: R) (i, a) _ U El H1 H2 eq_refl : flist_insertion_point comp proj l _ (proj a) = _).
  cbn [andthen]. rewrite fpos_eqb by (auto; lia).
  destruct (insertion_step P1 P2 (i, a) R l0 HS) as [HS' HR']; auto. { now rewrite <- app_assoc, <- El. }
  destruct (Nat.eqb_spec (length P1) (length P1 + length P2)) as [E|N].
  - cbn [snd]. split; [|lia]. assert (P2 = []) as -> by (destruct P2; auto; simpl in E; lia).
    exists (P1 ++ [(i, a)]), R. rewrite <- app_assoc. split; [exact El|]. split; [reflexivity|]. rewrite app_length. cbn [length].
    split; [lia|]. split; auto.
  - rewrite (splice_after_back l P1 P2 R (i, a)) by auto. cbn [andthen snd]. split; [|lia].
    exists (P1 ++ (i, a) :: P2), R. rewrite <- app_assoc. split; [reflexivity|].
    split. {
      (* the iterator designates the last node of P2, now one place further *)
      destruct P2 as [|z P2'] using rev_ind; [simpl in N; lia|]. clear IHP2'. rewrite El, app_length. cbn [length]. 
      replace (length P1 + (length P2' + 1)) with (Datatypes.S (length P1 + length P2')) by lia. cbn [fpos].
      unfold pos_at. f_equal.
      replace (nth_error (P1 ++ (P2' ++ [z]) ++ (i, a) :: R) (length P1 + length P2')) with (Some z).
      - replace (nth_error (P1 ++ (i, a) :: (P2' ++ [z]) ++ R) (Datatypes.S (length P1 + length P2'))) with (Some z); auto.
        replace (P1 ++ (i, a) :: (P2' ++ [z]) ++ R) with ((P1 ++ (i, a) :: P2') ++ z :: R) by (rewrite <- !app_assoc; reflexivity).
        replace (Datatypes.S (length P1 + length P2')) with (length (P1 ++ (i, a) :: P2')) by (rewrite app_length; cbn [length]; lia). now rewrite nth_mid.
      - replace (P1 ++ (P2' ++ [z]) ++ (i, a) :: R) with ((P1 ++ P2') ++ z :: (i, a) :: R) by (rewrite <- !app_assoc; reflexivity).
        rewrite <- app_length, nth_mid. reflexivity. }
    rewrite app_length. cbn [length]. split; [lia|]. split; auto. now rewrite <- app_assoc in HR'.
Qed.

(** The element of index [m] is the first of the smallest among those with indices from [k] to [f]. *)
Definition first_min l (k m f : nat) : Prop := k <= m <= f /\ exists y, nth_error l m = Some y /\
  (forall i x, k <= i < m -> nth_error l i = Some x -> ltn y x = true) /\ (forall i x, m <= i <= f -> nth_error l i = Some x -> ltn x y = false).

Lemma first_min_one : forall l k, k < length l -> first_min l k k k.
Proof.
  intros l k H. split; [lia|]. destruct (at_some l k H) as (i & a & E). exists (i, a). split; auto. split. { intros; lia. }
  intros j x Hj N. replace j with k in N by lia. rewrite E in N. injection N as <-. apply lt_irrefl, ltn_swo.
Qed.

Lemma first_min_step : forall l k m f i a j b, first_min l k m f -> nth_error l (S f) = Some (i, a) -> nth_error l m = Some (j, b) ->
  first_min l k (if comp (proj a) (proj b) then S f else m) (S f).
Proof.
  intros l k m f i a j b (Hm & y & Ey & H1 & H2) Ex Ey'. rewrite Ey' in Ey. injection Ey as <-.
  change (comp (proj a) (proj b)) with (ltn (i, a) (j, b)). destruct (ltn (i, a) (j, b)) eqn:C; (split; [lia|]).
  - exists (i, a). split; auto. split.
    + intros k' z Hk Z. destruct (Nat.lt_ge_cases k' m).
      * apply (lt_trans ltn ltn_swo (i, a) (j, b) z); auto. apply (H1 k' z); auto. lia.
      * apply (lt_le_trans ltn ltn_swo (i, a) (j, b) z); auto. apply (H2 k' z); auto. lia.
    + intros k' z Hk Z. replace k' with (S f) in Z by lia. rewrite Ex in Z. injection Z as <-. apply lt_irrefl, ltn_swo.
  - exists (j, b). split; auto. split; auto. intros k' z Hk Z. destruct (Nat.eq_dec k' (S f)) as [->|].
    + rewrite Ex in Z. injection Z as <-. exact C.
    + apply (H2 k' z); auto. lia.
Qed.

Lemma first_min_split : forall l S x R m, l = S ++ x :: R -> first_min l (length S) m (length l - 1) ->
  exists y Q R', l = S ++ Q ++ y :: R' /\ m = length S + length Q /\ (forall z, In z Q -> ltn y z = true) /\ (forall z, In z R' -> ltn z y = false).
Proof.
  intros l S x R m El (Hm & y & Ey & H1 & H2). assert (Ll : length l = length S + Datatypes.S (length R)) by (subst; rewrite app_length; reflexivity).
  assert (E' : nth_error (x :: R) (m - length S) = Some y) by (subst l; rewrite nth_error_app2 in Ey by lia; auto).
  destruct (nth_error_split _ _ E') as (Q & R' & EQ & LQ). exists y, Q, R'. assert (El' : l = S ++ Q ++ y :: R') by (now rewrite El, EQ).
  split; [auto|]. split; [lia|]. split.
  - intros z Hz. apply In_nth_error in Hz as (i & Hi). assert (i < length Q) by (apply nth_error_Some; congruence).
    apply (H1 (length S + i) z); [lia|]. rewrite El', nth_error_app2 by lia. replace (length S + i - length S) with i by lia. now rewrite nth_error_app1.
  - intros z Hz. apply In_nth_error in Hz as (i & Hi). assert (i < length R') by (apply nth_error_Some; congruence).
    assert (length l = length S + (length Q + Datatypes.S (length R'))) by (rewrite El', !app_length; reflexivity).
    apply (H2 (length S + (length Q + Datatypes.S i)) z); [lia|]. rewrite El', !nth_error_app2 by lia.
    replace (length S + (length Q + Datatypes.S i) - length S - length Q) with (Datatypes.S i) by lia. exact Hi.
Qed.

(** Placing the smallest of the remaining elements. *)
Lemma selection_step : forall S Q y R l0, sorted ltn S -> (forall x z, In x S -> In z (Q ++ y :: R) -> ltn z x = false) ->
  same_order_in_classes ltn l0 (S ++ Q ++ y :: R) -> (forall z, In z Q -> ltn y z = true) -> (forall z, In z R -> ltn z y = false) ->
  sorted ltn (S ++ [y]) /\ (forall x z, In x (S ++ [y]) -> In z (Q ++ R) -> ltn z x = false) /\ same_order_in_classes ltn l0 ((S ++ [y]) ++ Q ++ R).
Proof.
  intros S Q y R l0 HS HB HR HQ HR'. split; [|split].
  - apply sorted_app. split; auto. split; [apply sorted_one|]. intros x z Hx [<-|[]]. apply HB; auto. apply in_or_app. simpl. auto.
  - intros x z Hx Hz. apply in_app_or in Hx as [Hx|[<-|[]]].
    + apply HB; auto. apply in_app_or in Hz. apply in_or_app. simpl. tauto.
    + apply in_app_or in Hz as [Hz|Hz]; auto. apply (lt_asym ltn ltn_swo). auto.
  - eapply same_trans; [apply HR|]. rewrite <- app_assoc. apply same_app; [apply same_refl|].
    change (Q ++ y :: R) with (Q ++ [y] ++ R). rewrite !app_assoc. apply same_app; [|apply same_refl].
    apply same_swap; [apply ltn_swo|]. intros a b Ha [<-|[]]. auto.
Qed.

Lemma list_min_element_done : forall l k, uniq l -> k < length l ->
  exists m, list_min_element comp proj l (pos_at l k) End = Done (pos_at l m) /\ first_min l k m (length l - 1).
Proof.
  intros l k U Hk. unfold list_min_element. rewrite pos_at_eqb_end. rewrite (proj2 (Nat.leb_gt _ _)) by lia.
  edestruct (iter_rule (pos * pos) pos) with (mu := fun s : pos * pos => match index l (fst s) with Some f => length l - f | None => 0 end)
    (Inv := fun s => exists f m, s = (pos_at l f, pos_at l m) /\ f < length l /\ first_min l k m f)
    (Q := fun p => exists m, p = pos_at l m /\ first_min l k m (length l - 1)) as (p & -> & m & -> & Hm); eauto.
  - intros s (f & m & -> & Hf & Hm). rewrite next_pos_at by auto. cbn [andthen]. rewrite pos_at_eqb_end.
    destruct (length l <=? S f) eqn:E.
    + apply Nat.leb_le in E. exists m. split; auto. now replace (length l - 1) with f by lia.
    + apply Nat.leb_gt in E. unfold comp_at. destruct (at_some l (S f) E) as (i & a & Nx). rewrite (deref_pos_at _ _ _ _ U Nx). cbn [andthen].
      assert (m < length l) as Lm by (destruct Hm; lia). destruct (at_some l m Lm) as (j & b & Ny). rewrite (deref_pos_at _ _ _ _ U Ny). cbn [andthen fst].
      rewrite !index_pos_at by (auto; lia). split; [|lia]. exists (S f), (if comp (proj a) (proj b) then S f else m).
      split. { now destruct (comp (proj a) (proj b)). } split; auto. eapply first_min_step; eauto.
  - exists k, k. split; auto. split; auto. now apply first_min_one.
  - cbn [fst]. rewrite index_pos_at by (auto; lia). lia.
Qed.

Lemma list_selection_sort_stable : sorts_list_stably lt (list_selection_sort comp proj).
Proof.
  intros l0 U0. unfold list_selection_sort.
  edestruct (iter_rule (list (node A) * pos) (list (node A))) with
    (Inv := fun '(l, it) => exists S R, l = S ++ R /\ it = pos_at l (length S) /\ sorted ltn S /\ (forall x z, In x S -> In z R -> ltn z x = false) /\ same_order_in_classes ltn l0 l)
    (mu := fun s : list (node A) * pos => match index (fst s) (snd s) with Some k => length l0 - k | None => 0 end)
    (Q := fun l' => sorted ltn l' /\ same_order_in_classes ltn l0 l') as (l' & -> & HS & HR).
  2: { exists [], l0. repeat split; auto using sorted_nil. simpl; tauto. }
  2: { cbn [fst snd]. unfold begin_. rewrite index_pos_at by (auto; lia). lia. }
  2: { exists l'. split; [reflexivity|]. split; [apply (same_perm ltn ltn_swo _ _ HR) | auto]. }
  intros [l it] (S & R & El & -> & HS & HB & HR). pose proof (same_perm ltn ltn_swo _ _ HR) as HP. pose proof (uniq_perm _ _ HP U0) as U.
  assert (Ll : length l = length S + length R) by (rewrite El, app_length; reflexivity). rewrite (Permutation_length HP).
  rewrite pos_at_eqb_end. destruct R as [|x R].
  { rewrite app_nil_r in El. subst S. rewrite Nat.leb_refl. auto. }
  cbn [length] in Ll. rewrite (proj2 (Nat.leb_gt _ _)) by lia. destruct (list_min_element_done l (length S) U ltac:(lia)) as (m & -> & Hm).
  destruct (first_min_split l S x R m El Hm) as (y & Q & R' & El' & -> & HQ & HR').
  assert (Ll' : length l = length S + (length Q + Datatypes.S (length R'))) by (rewrite El', !app_length; reflexivity).
  assert (EQ : x :: R = Q ++ y :: R') by (rewrite El in El'; now apply app_inv_head in El').
  destruct (selection_step S Q y R' l0 HS) as (HS' & HB' & HR2); auto. { now rewrite <- EQ. } { now rewrite <- El'. }
  cbn [andthen fst snd]. rewrite pos_at_eqb by (auto; lia). rewrite index_pos_at by (auto; lia).
  destruct (Nat.eqb_spec (length S + length Q) (length S)) as [E|N].
  - assert (Q = []) as -> by (destruct Q; auto; simpl in E; lia). rewrite next_pos_at by (auto; lia). cbn [andthen fst snd].
    rewrite index_pos_at by (auto; lia). split; [|lia]. exists (S ++ [y]), R'. rewrite <- app_assoc. split; [exact El'|].
    rewrite app_length. cbn [length]. split; [f_equal; lia|]. auto.
  - rewrite (splice_back l S Q R' y) by auto. cbn [andthen fst snd].
    assert (EP : pos_at l (length S) = pos_at (S ++ y :: Q ++ R') (Datatypes.S (length S))).
    { destruct Q as [|q Q]; [simpl in N; lia|]. unfold pos_at. rewrite El'. replace (nth_error (S ++ (q :: Q) ++ y :: R') (length S)) with (Some q).
      - replace (S ++ y :: (q :: Q) ++ R') with ((S ++ [y]) ++ q :: Q ++ R') by (now rewrite <- app_assoc).
        replace (Datatypes.S (length S)) with (length (S ++ [y])) by (rewrite app_length; simpl; lia). now rewrite nth_mid.
      - symmetry. apply (nth_mid S q (Q ++ y :: R')). }
    rewrite EP. rewrite index_pos_at.
    + split; [|lia]. exists (S ++ [y]), (Q ++ R'). rewrite <- !app_assoc. split; [reflexivity|]. rewrite app_length. cbn [length].
      split; [f_equal; lia|]. split; auto. split; auto. now rewrite <- !app_assoc in HR2.
    + apply uniq_perm with l; auto. rewrite El'. apply swap_perm.
    + rewrite app_length. cbn [length]. lia.
Qed.

Lemma flist_before_min_done : forall l k, uniq l -> k < length l ->
  exists m, flist_before_min comp proj l (fpos l k) = Done (fpos l m) /\ first_min l k m (length l - 1).
Proof.
  intros l k U Hk. unfold flist_before_min.
  edestruct (iter_rule (pos * pos) pos) with (mu := fun s : pos * pos => match index_after l (snd s) with Some f => length l - f | None => 0 end)
    (Inv := fun s => exists f m, s = (fpos l m, fpos l f) /\ f <= length l /\ k <= f /\ (f = k /\ m = k \/ exists f', f = S f' /\ first_min l k m f'))
    (Q := fun p => exists m, p = fpos l m /\ first_min l k m (length l - 1)) as (p & -> & m & -> & Hm); eauto.
  - intros s (f & m & -> & Hf & Hk' & Hm). rewrite next_fpos by auto. cbn [andthen]. rewrite pos_at_eqb_end.
    destruct (length l <=? f) eqn:E.
    + apply Nat.leb_le in E. exists m. split; auto. destruct Hm as [[? ?]|(f' & Ef & Hm)]; [lia|]. now replace (length l - 1) with f' by lia.
    + apply Nat.leb_gt in E. assert (m < length l) as Lm by (destruct Hm as [[? ?]|(f' & Ef & ? & _)]; lia).
      rewrite next_fpos by (auto; lia). cbn [andthen].
      unfold comp_at. destruct (at_some l f E) as (i & a & Nx). rewrite (deref_pos_at _ _ _ _ U Nx). cbn [andthen].
      destruct (at_some l m Lm) as (j & b & Ny). rewrite (deref_pos_at _ _ _ _ U Ny). cbn [andthen snd].
      change (pos_at l f) with (fpos l (S f)). rewrite !index_after_fpos by (auto; lia). split; [|lia].
      exists (S f), (if comp (proj a) (proj b) then f else m).
      split. { now destruct (comp (proj a) (proj b)). } split; auto. split; [lia|]. right. exists f. split; auto.
      destruct Hm as [[-> ->]|(f' & -> & Hm)]. { destruct (comp (proj a) (proj b)); now apply first_min_one. } { eapply first_min_step; eauto. }
  - exists k, k. split; auto. split; [lia|]. auto.
  - cbn [snd]. rewrite index_after_fpos by (auto; lia). lia.
Qed.

Lemma flist_selection_sort_stable : sorts_list_stably lt (flist_selection_sort comp proj).
Proof.
  intros l0 U0. unfold flist_selection_sort.
  edestruct (iter_rule (list (node A) * pos) (list (node A))) with
    (Inv := fun '(l, it) => exists S R, l = S ++ R /\ it = fpos l (length S) /\ sorted ltn S /\ (forall x z, In x S -> In z R -> ltn z x = false) /\ same_order_in_classes ltn l0 l)
    (mu := fun s : list (node A) * pos => match index_after (fst s) (snd s) with Some k => length l0 - k | None => 0 end)
    (Q := fun l' => sorted ltn l' /\ same_order_in_classes ltn l0 l') as (l' & -> & HS & HR).
  2: { exists [], l0. repeat split; auto using sorted_nil. simpl; tauto. }
  2: { cbn [fst snd index_after]. lia. }
  2: { exists l'. split; [reflexivity|]. split; [apply (same_perm ltn ltn_swo _ _ HR) | auto]. }
  intros [l it] (S & R & El & -> & HS & HB & HR). pose proof (same_perm ltn ltn_swo _ _ HR) as HP. pose proof (uniq_perm _ _ HP U0) as U.
  assert (Ll : length l = length S + length R) by (rewrite El, app_length; reflexivity). rewrite (Permutation_length HP).
  rewrite next_fpos by (auto; lia). cbn [andthen]. rewrite pos_at_eqb_end. destruct R as [|x R].
  { rewrite app_nil_r in El. subst S. rewrite Nat.leb_refl. auto. }
  cbn [length] in Ll. rewrite (proj2 (Nat.leb_gt _ _)) by lia. destruct (flist_before_min_done l (length S) U ltac:(lia)) as (m & -> & Hm).
  destruct (first_min_split l S x R m El Hm) as (y & Q & R' & El' & -> & HQ & HR').
  assert (Ll' : length l = length S + (length Q + Datatypes.S (length R'))) by (rewrite El', !app_length; reflexivity).
  assert (EQ : x :: R = Q ++ y :: R') by (rewrite El in El'; now apply app_inv_head in El').
  destruct (selection_step S Q y R' l0 HS) as (HS' & HB' & HR2); auto. { now rewrite <- EQ. } { now rewrite <- El'. }
  cbn [andthen fst snd]. rewrite index_after_fpos by (auto; lia). rewrite (splice_after_back l S Q R' y) by auto. cbn [andthen].
  assert (U' : uniq (S ++ y :: Q ++ R')) by (apply uniq_perm with l; auto; rewrite El'; apply swap_perm).
  assert (L' : length (S ++ y :: Q ++ R') = length l) by (rewrite El', !app_length; cbn [length]; rewrite !app_length; cbn [length]; lia).
  assert (EP : fpos l (length S) = fpos (S ++ y :: Q ++ R') (length S)).
  { destruct S as [|s S _] using rev_ind; [reflexivity|]. rewrite app_length, Nat.add_1_r. cbn [length fpos]. unfold pos_at. rewrite El', <- !app_assoc.
    cbn [app]. now rewrite !nth_mid. }
  rewrite EP, next_fpos by (auto; lia). cbn [andthen fst snd].
  change (pos_at (S ++ y :: Q ++ R') (length S)) with (fpos (S ++ y :: Q ++ R') (Datatypes.S (length S))).
  rewrite index_after_fpos by (auto; lia). split; [|lia]. exists (S ++ [y]), (Q ++ R'). rewrite <- !app_assoc. split; [reflexivity|].
  rewrite app_length, Nat.add_1_r. split; [reflexivity|]. split; auto. split; auto. now rewrite <- !app_assoc in HR2.
Qed.

(** Merge sort. *)
Lemma merge_back : forall l r l' r', Permutation l l' -> Permutation r r' -> sorted ltn l' -> sorted ltn r' ->
  same_order_in_classes ltn (rev l) l' -> same_order_in_classes ltn (rev r) r' ->
  exists w, merge_with (less comp proj) r' l' = Done w /\ is_sorting_of ltn (l ++ r) w /\ same_order_in_classes ltn (rev (l ++ r)) w.
Proof.
  intros l r l' r' Pl Pr Sl Sr Rl Rr. exists (merge ltn r' l'). split. { exact (merge_with_done lt r' l' Sr Sl). }
  split; [split|].
  - rewrite <- (merge_perm ltn r' l'). rewrite <- Pl, <- Pr. apply Permutation_app_comm.
  - apply merge_sorted; auto. apply ltn_swo.
  - eapply same_trans; [|apply merge_same; auto using ltn_swo]. rewrite rev_app_distr. now apply same_app.
Qed.

Lemma list_merge_sort_rec_done : forall fuel l, uniq l -> length l < fuel ->
  exists w, list_merge_sort_rec comp proj fuel l = Done w /\ is_sorting_of ltn l w /\ same_order_in_classes ltn (rev l) w.
Proof.
  induction fuel as [|fuel IH]; intros l U Hf; [lia|]. cbn [list_merge_sort_rec]. destruct (length l <? 2) eqn:E2.
  { apply Nat.ltb_lt in E2. exists l. split; [reflexivity|]. destruct l as [|x [|y l]]; [| |simpl in E2; lia].
    - repeat split; auto using sorted_nil. - repeat split; auto using sorted_one. }
  apply Nat.ltb_ge in E2. pose proof (half_lt (length l) ltac:(lia)) as Hh.
  assert (Hh0 : 0 < length l / 2) by (apply Nat.div_str_pos; lia).
  unfold begin_ at 1. rewrite advance_pos_at by (auto; lia). cbn [andthen Nat.add].
  unfold splice_range. cbn [begin_ pos_at nth_error index length]. unfold begin_. rewrite !index_pos_at by (auto; lia).
  unfold move_nodes. cbn [Nat.leb]. rewrite (proj2 (Nat.leb_le _ _)) by lia. cbn [andb andthen firstn skipn]. rewrite Nat.sub_0_r, app_nil_r. cbn [app].
  pose proof (firstn_skipn (length l / 2) l) as Es. rewrite <- Es in U. apply uniq_app in U as [U1 U2].
  destruct (IH (firstn (length l / 2) l) U1) as (w1 & -> & [P1 S1] & R1). { rewrite firstn_length. lia. }
  cbn [andthen]. destruct (IH (skipn (length l / 2) l) U2) as (w2 & -> & [P2 S2] & R2). { rewrite skipn_length. lia. }
  cbn [andthen]. destruct (merge_back _ _ w1 w2 P1 P2 S1 S2 R1 R2) as (w & -> & H). exists w. split; [reflexivity|]. now rewrite Es in H.
Qed.

Lemma list_merge_sort_reverses : sorts_list_reversing_ties lt (list_merge_sort comp proj).
Proof. intros l U. apply list_merge_sort_rec_done; auto. Qed.

Lemma flist_merge_sort_rec_done : forall fuel l size, uniq l -> size = length l -> length l < fuel ->
  exists w, flist_merge_sort_rec comp proj fuel l size = Done w /\ is_sorting_of ltn l w /\ same_order_in_classes ltn (rev l) w.
Proof.
  induction fuel as [|fuel IH]; intros l size U -> Hf; [lia|]. cbn [flist_merge_sort_rec]. destruct (length l <? 2) eqn:E2.
  { apply Nat.ltb_lt in E2. exists l. split; [reflexivity|]. destruct l as [|x [|y l]]; [| |simpl in E2; lia].
    - repeat split; auto using sorted_nil. - repeat split; auto using sorted_one. }
  apply Nat.ltb_ge in E2. pose proof (half_lt (length l) ltac:(lia)) as Hh.
  assert (Hh0 : 0 < length l / 2) by (apply Nat.div_str_pos; lia).
  change Before with (fpos l 0) at 1. rewrite advance_fpos by (auto; lia). cbn [andthen Nat.add].
  rewrite Nat.add_1_r. cbn [fpos].
  unfold splice_after_range. cbn [index_after]. rewrite !index_pos_at by (auto; lia).
  unfold move_nodes. cbn [Nat.leb]. rewrite (proj2 (Nat.leb_le _ _)) by lia. cbn [andb andthen firstn skipn]. rewrite Nat.sub_0_r, app_nil_r. cbn [app].
  pose proof (firstn_skipn (length l / 2) l) as Es. rewrite <- Es in U. apply uniq_app in U as [U1 U2].
  destruct (IH (firstn (length l / 2) l) (length l / 2) U1) as (w1 & -> & [P1 S1] & R1). { rewrite firstn_length. lia. } { rewrite firstn_length. lia. }
  cbn [andthen]. destruct (IH (skipn (length l / 2) l) (length l - length l / 2) U2) as (w2 & -> & [P2 S2] & R2). { rewrite skipn_length. lia. } { rewrite skipn_length. lia. }
  cbn [andthen]. destruct (merge_back _ _ w1 w2 P1 P2 S1 S2 R1 R2) as (w & -> & H). exists w. split; [reflexivity|]. now rewrite Es in H.
Qed.

Lemma flist_merge_sort_reverses : sorts_list_reversing_ties lt (flist_merge_sort comp proj).
Proof. intros l U. apply flist_merge_sort_rec_done; auto. Qed.
End Proofs.
