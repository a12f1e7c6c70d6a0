(** grail_sort: the selection sort of the blocks. *)
From Coq Require Import List Arith Lia Permutation Bool ZArith.
From Verif Require Import Spec.Order Lang.Mem Proofs.Wp Proofs.OrderLib Model.Rotate Proofs.Rotate Proofs.RotateGcd Model.Search Proofs.Search Model.Grail Proofs.GrailMerge Proofs.GrailSmart Proofs.GrailBuffers.
Import ListNotations.
Local Arguments nth_error : simpl never.
Local Arguments upd : simpl never.
Local Arguments loop : simpl never.
Local Arguments gapok : simpl never.
Local Arguments Z.sub : simpl never.
Local Arguments Nat.mul : simpl never.

(** A list with no equivalent elements that is sorted is the only sorted permutation of itself. *)
Inductive strict {X : Type} (lt : X -> X -> bool) : list X -> Prop :=
| strict_nil : strict lt []
| strict_cons : forall x l, (forall y, In y l -> lt x y = true) -> strict lt l -> strict lt (x :: l).
Lemma strict_unique : forall {X} (lt : X -> X -> bool) l l', strict lt l -> Permutation l l' -> sorted lt l' -> l = l'.
Proof.
  intros X lt l l' HS. revert l'. induction HS as [|x l HX HS IH]; intros l' HP HL. { symmetry. now apply Permutation_nil. }
  destruct l' as [|y l']. { apply Permutation_sym, Permutation_nil in HP. discriminate. }
  apply sorted_cons in HL as [H1 H2]. assert (x = y) as ->.
  { assert (In y (x :: l)) as [E|Hy]; auto. { eapply Permutation_in; [symmetry; exact HP|now left]. }
    assert (In x (y :: l')) as [E|Hx]; auto. { eapply Permutation_in; [exact HP|now left]. }
    specialize (HX _ Hy). specialize (H1 _ Hx). red in H1. congruence. }
  f_equal. apply IH; auto. eapply Permutation_cons_inv; eauto.
Qed.
Lemma sorted_filter : forall {X} (lt : X -> X -> bool) f l, sorted lt l -> sorted lt (filter f l).
Proof.
  intros X lt f. induction l as [|x l IH]; intros H; auto. apply sorted_cons in H as [H1 H2]. simpl. destruct (f x); auto.
  apply sorted_cons. split; auto. intros b Hb. apply filter_In in Hb. now apply H1.
Qed.
Lemma strict_sorted : forall {X} (lt : X -> X -> bool), strict_weak_order lt -> forall l, strict lt l -> sorted lt l.
Proof. intros X lt HW l H. induction H as [|x l H1 H2 IH]. { apply sorted_nil. } apply sorted_cons. split; auto. intros b Hb. red. apply (lt_asym lt HW). auto. Qed.
Lemma strict_app : forall {X} (lt : X -> X -> bool) l1 l2, strict lt (l1 ++ l2) -> strict lt l1 /\ strict lt l2 /\ forall x y, In x l1 -> In y l2 -> lt x y = true.
Proof.
  intros X lt l1 l2 H. induction l1 as [|x l1 IH]; simpl in *. { cj; auto; try constructor; intros x y []. }
  inversion H as [|x' l H1 H2]; subst. destruct (IH H2) as (I1 & I2 & I3). cj; auto.
  - constructor; auto. intros; apply H1. apply in_app_iff; auto.
  - intros a b [<-|Ha] Hb; auto. apply H1. apply in_app_iff; auto.
Qed.
Lemma Permutation_filter : forall {X} (f : X -> bool) l l', Permutation l l' -> Permutation (filter f l) (filter f l').
Proof.
  intros X f l l' H. induction H; simpl; auto.
  - destruct (f x); auto.
  - destruct (f x), (f y); auto. constructor.
  - etransitivity; eauto.
Qed.

Section Blocks.
Context {A T : Type} (comp : T -> T -> bool) (proj : A -> T) (triv : bool).
Notation lt := (by_proj comp proj).
Implicit Types (pre post G : mem A).
Hypothesis HW : strict_weak_order lt.

(** A key with its block. *)
Local Notation kblk := (A * (A * list A))%type.
Implicit Types (kb : list kblk).
Definition hdk (p : kblk) : A := fst (snd p).
Definition block (p : kblk) : list A := fst (snd p) :: snd (snd p).
Definition bcells kb : list A := concat (map block kb).
Definition plt (p q : kblk) : bool := if lt (hdk p) (hdk q) then true else if lt (hdk q) (hdk p) then false else lt (fst p) (fst q).

Lemma plt_swo : strict_weak_order plt.
Proof.
  constructor; unfold plt.
  - intros x. now rewrite !(swo_irrefl _ HW).
  - intros x y z. destruct (lt (hdk x) (hdk y)) eqn:E1.
    + intros _. destruct (lt (hdk y) (hdk z)) eqn:E2. { intros _. now rewrite (swo_trans _ HW _ _ _ E1 E2). }
      destruct (lt (hdk z) (hdk y)) eqn:E3; [discriminate|]. intros _. now rewrite (lt_le_trans _ HW _ _ _ E1 E3).
    + destruct (lt (hdk y) (hdk x)) eqn:E2; [discriminate|]. intros K1. destruct (lt (hdk y) (hdk z)) eqn:E3.
      { intros _. now rewrite (le_lt_trans _ HW _ _ _ E2 E3). }
      destruct (lt (hdk z) (hdk y)) eqn:E4; [discriminate|]. intros K2. destruct (swo_incomp _ HW _ _ _ E1 E2 E3 E4) as [-> ->]. exact (swo_trans _ HW _ _ _ K1 K2).
  - intros x y z. destruct (lt (hdk x) (hdk y)) eqn:E1; [discriminate|]. destruct (lt (hdk y) (hdk x)) eqn:E2; [discriminate|].
    destruct (lt (hdk y) (hdk z)) eqn:E3; [discriminate|]. destruct (lt (hdk z) (hdk y)) eqn:E4; [discriminate|].
    intros K1 K2 K3 K4. destruct (swo_incomp _ HW _ _ _ E1 E2 E3 E4) as [-> ->]. exact (swo_incomp _ HW _ _ _ K1 K2 K3 K4).
Qed.

Lemma bcells_app : forall kb1 kb2, bcells (kb1 ++ kb2) = bcells kb1 ++ bcells kb2.
Proof. intros. unfold bcells. now rewrite map_app, concat_app. Qed.
Lemma bcells_cons : forall p kb, bcells (p :: kb) = block p ++ bcells kb.
Proof. reflexivity. Qed.
Lemma bcells_length : forall kb lblock, (forall p, In p kb -> length (block p) = lblock) -> length (bcells kb) = length kb * lblock.
Proof. induction kb as [|p kb IH]; intros lblock H; auto. change (bcells (p :: kb)) with (block p ++ bcells kb). rewrite app_length, (IH lblock), (H p); [simpl length; nia|now left|intros; apply H; now right]. Qed.

(** The keys, then the blocks. *)
Definition kmem kb (kp mid post : mem A) : mem A := kp ++ map Val (map fst kb) ++ mid ++ map Val (bcells kb) ++ post.
Lemma read_key : forall kb kp mid post i p, nth_error kb i = Some p -> nth_error (kmem kb kp mid post) (length kp + i) = Some (Val (fst p)).
Proof.
  intros kb kp mid post i p H. apply nth_error_split in H as (l1 & l2 & -> & <-). unfold kmem. rewrite !map_app. simpl map.
  rewrite <- !app_assoc. simpl app. rewrite app_assoc. apply nth_at. rewrite app_length, !map_length. lia.
Qed.
Lemma read_head : forall kb kp mid post lblock i p a, (forall p, In p kb -> length (block p) = lblock) -> a = length kp + length kb + length mid ->
  nth_error kb i = Some p -> nth_error (kmem kb kp mid post) (a + i * lblock) = Some (Val (hdk p)).
Proof.
  intros kb kp mid post lblock i p a HL -> H. apply nth_error_split in H as (l1 & l2 & -> & <-). unfold kmem. rewrite bcells_app.
  replace (kp ++ map Val (map fst (l1 ++ p :: l2)) ++ mid ++ map Val (bcells l1 ++ bcells (p :: l2)) ++ post) with
    ((kp ++ map Val (map fst (l1 ++ p :: l2)) ++ mid ++ map Val (bcells l1)) ++ Val (hdk p) :: map Val (snd (snd p)) ++ map Val (bcells l2) ++ post)
    by (unfold bcells; simpl; unfold block; rewrite !map_app; solve_app).
  apply nth_at. rewrite !app_length, !map_length, !app_length. rewrite (bcells_length l1 lblock). { simpl length. lia. } intros q Hq. apply HL. apply in_app_iff; auto.
Qed.

Lemma select_block_wp : forall d x r kp mid post lblock keys arr1 u (Q : nat -> mem A -> Prop), (forall p, In p (d ++ x :: r) -> length (block p) = lblock) ->
  keys = length kp -> arr1 = length kp + length (d ++ x :: r) + length mid -> u = S (length d) ->
  (forall e1 y e2, x :: r = e1 ++ y :: e2 -> (forall w, In w (x :: r) -> plt w y = false) -> Q (length d + length e1) (kmem (d ++ x :: r) kp mid post)) ->
  wp (select_block comp proj keys arr1 lblock (length (d ++ x :: r)) u) Q (kmem (d ++ x :: r) kp mid post).
Proof.
  intros d x r kp mid post lblock keys arr1 u Q HL -> -> -> HQ. unfold select_block.
  apply wp_loop' with
    (I := fun '(v, p) m => m = kmem (d ++ x :: r) kp mid post /\ exists e1 y e2 r2, x :: r = e1 ++ y :: e2 ++ r2 /\ p = length d + length e1 /\
       v = length d + length e1 + S (length e2) /\ (forall w, In w (e1 ++ y :: e2) -> plt w y = false))
    (mu := fun '(v, p) => length (d ++ x :: r) - v).
  - split; auto. exists [], x, [], r. cj; auto; [simpl; lia|simpl; lia|]. intros w [<-|[]]. apply (swo_irrefl _ plt_swo).
  - lia.
  - intros [v p] m (-> & e1 & y & e2 & r2 & E & -> & -> & HP).
    assert (length (d ++ x :: r) = length d + length e1 + S (length e2) + length r2) as LR. { rewrite E, !app_length. simpl. rewrite app_length. lia. }
    destruct r2 as [|z r2].
    + simpl in LR. destruct (Nat.ltb_spec (length d + length e1 + S (length e2)) (length (d ++ x :: r))); [lia|]. apply wp_ret. rewrite app_nil_r in E. apply (HQ e1 y e2); auto. now rewrite E.
    + destruct (Nat.ltb_spec (length d + length e1 + S (length e2)) (length (d ++ x :: r))); [|simpl in LR; lia].
      assert (nth_error (d ++ x :: r) (length d + length e1) = Some y) as Hy. { rewrite E, app_assoc. apply nth_at. now rewrite app_length. }
      assert (nth_error (d ++ x :: r) (length d + length e1 + S (length e2)) = Some z) as Hz.
      { rewrite E. replace (d ++ e1 ++ y :: e2 ++ z :: r2) with ((d ++ e1 ++ y :: e2) ++ z :: r2) by solve_app. apply nth_at. rewrite !app_length. simpl. lia. }
      apply wp_bind. eapply wp_compare_at; [eapply read_head; eauto|eapply read_head; eauto|]. rewrite compare_pos' by auto.
      apply wp_bind.
      match goal with |- wp _ ?K ?m => assert (K (plt z y) m) as HK end.
      { apply wp_ret. split; [|lia]. split; auto. destruct (plt z y) eqn:EP.
        - exists (e1 ++ y :: e2), z, [], r2. cj; [rewrite E; solve_app|lens|lens|].
          intros w Hw. apply in_app_iff in Hw as [Hw|[<-|[]]]; [|apply (swo_irrefl _ plt_swo)].
          destruct (plt w z) eqn:EW; auto. rewrite <- (HP w Hw). symmetry. apply (swo_trans _ plt_swo _ _ _ EW EP).
        - exists e1, y, (e2 ++ [z]), r2. cj; [rewrite E; solve_app|lens|lens|].
          intros w Hw. rewrite app_comm_cons, app_assoc in Hw. apply in_app_iff in Hw as [Hw|[<-|[]]]; auto. }
      unfold plt in HK. destruct (lt (hdk z) (hdk y)) eqn:E1. { apply wp_ret. exact HK. }
      destruct (Z.eqb_spec (compare comp proj (hdk y) (hdk z)) 0) as [E2|E2].
      * assert (lt (hdk y) (hdk z) = false) as E3. { rewrite <- compare_neg, E2. reflexivity. } rewrite E3 in HK.
        apply wp_bind. eapply wp_compare_at; [eapply read_key; eauto|eapply read_key; eauto|]. rewrite compare_pos' by auto. apply wp_ret. exact HK.
      * assert (lt (hdk y) (hdk z) = true) as E3. { unfold compare in E2. change (comp (proj (hdk y)) (proj (hdk z))) with (lt (hdk y) (hdk z)) in E2. change (comp (proj (hdk z)) (proj (hdk y))) with (lt (hdk z) (hdk y)) in E2. rewrite E1 in E2. destruct (lt (hdk y) (hdk z)); congruence. }
        rewrite E3 in HK. apply wp_ret. exact HK.
Qed.

(** The position of the middle key. *)
Definition mid_ok kb0 kb (mk0 mk : nat) : Prop :=
  (forall p, nth_error kb0 mk0 = Some p -> exists q, nth_error kb mk = Some q /\ fst q = fst p) /\ (length kb0 <= mk0 -> mk = mk0).

Lemma swap_in_kmem_wp : forall d x e y f kp mid post lblock keys arr1 (Q : unit -> mem A -> Prop), (forall p, In p (d ++ x :: e ++ y :: f) -> length (block p) = lblock) ->
  keys = length kp -> arr1 = length kp + length (d ++ x :: e ++ y :: f) + length mid ->
  Q tt (kmem (d ++ y :: e ++ x :: f) kp mid post) ->
  wp (swap_ranges (arr1 + length d * lblock) (arr1 + S (length d) * lblock) (arr1 + (length d + S (length e)) * lblock) ;;
      swap (keys + length d) (keys + (length d + S (length e)))) Q (kmem (d ++ x :: e ++ y :: f) kp mid post).
Proof.
  intros d x e y f kp mid post lblock keys arr1 Q HL -> -> HQ. apply wp_bind. unfold kmem.
  assert (forall kb, (forall p, In p kb -> In p (d ++ x :: e ++ y :: f)) -> length (bcells kb) = length kb * lblock) as HB. { intros kb H. apply bcells_length. auto. }
  assert (length (block x) = lblock) as Lx. { apply HL. apply in_app_iff. right. now left. }
  assert (length (block y) = lblock) as Ly. { apply HL. apply in_app_iff. right. right. apply in_app_iff. right. now left. }
  assert (length (bcells d) = length d * lblock) as Ld. { apply HB. intros; apply in_app_iff; auto. }
  assert (length (bcells e) = length e * lblock) as Le. { apply HB. intros; apply in_app_iff. right. right. apply in_app_iff. auto. }
  reshape ((kp ++ map Val (map fst (d ++ x :: e ++ y :: f)) ++ mid ++ map Val (bcells d)) ++ map Val (block x) ++ map Val (bcells e) ++ map Val (block y) ++ (map Val (bcells f) ++ post)).
  { repeat (rewrite bcells_app || rewrite bcells_cons). solve_app. }
  eapply swap_ranges_wp.
  - congruence.
  - rewrite !app_length, !map_length, !app_length. simpl length. rewrite Ld. lia.
  - nia.
  - rewrite !map_length. nia.
  - reshape ((kp ++ map Val (map fst d)) ++ Val (fst x) :: map Val (map fst e) ++ Val (fst y) :: map Val (map fst f) ++ mid ++ map Val (bcells d) ++ map Val (block y) ++ map Val (bcells e) ++ map Val (block x) ++ map Val (bcells f) ++ post).
    apply wp_swap_at; [rewrite !app_length, !map_length; lia|rewrite !app_length, !map_length; simpl length; lia|].
    match goal with |- Q tt ?m => replace m with (kmem (d ++ y :: e ++ x :: f) kp mid post) end. { exact HQ. }

    unfold kmem. repeat (rewrite bcells_app || rewrite bcells_cons). rewrite !(map_app fst). simpl (map fst _). rewrite !(map_app fst). simpl (map fst _). solve_app.
Qed.

Lemma sort_blocks_wp : forall kb0 kp mid post lblock keys arr1 mk0 (Q : nat -> mem A -> Prop), (forall p, In p kb0 -> length (block p) = lblock) ->
  keys = length kp -> arr1 = length kp + length kb0 + length mid ->
  (forall kb mk, Permutation kb0 kb -> sorted plt kb -> mid_ok kb0 kb mk0 mk -> Q mk (kmem kb kp mid post)) ->
  wp (sort_blocks comp proj keys arr1 lblock (length kb0) mk0) Q (kmem kb0 kp mid post).
Proof.
  intros kb0 kp mid post lblock keys arr1 mk0 Q HL -> -> HQ. unfold sort_blocks.
  apply wp_loop' with
    (I := fun '(u, mk) m => exists d r, m = kmem (d ++ r) kp mid post /\ Permutation kb0 (d ++ r) /\ u = S (length d) /\ sorted plt d /\
        (forall a b, In a d -> In b r -> plt b a = false) /\ mid_ok kb0 (d ++ r) mk0 mk)
    (mu := fun '(u, mk) => length kb0 - u).
  - exists [], kb0. cj; auto; [apply sorted_nil|intros a b []|]. split; auto. eauto.
  - lia.
  - intros [u mk] m (d & r & -> & HP & -> & HS & HD & HM).
    assert (length kb0 = length d + length r) as LP by (rewrite (Permutation_length HP), app_length; auto).
    destruct r as [|x [|x2 r]].
    + destruct (Nat.ltb_spec (S (length d)) (length kb0)) as [E|E]; [simpl in LP; lia|]. apply wp_ret. apply HQ; auto. rewrite app_nil_r. auto.
    + destruct (Nat.ltb_spec (S (length d)) (length kb0)) as [E|E]; [simpl in LP; lia|]. apply wp_ret. apply HQ; auto. apply sorted_app. split; [auto|split; [apply sorted_one|]].
      intros a b Ha [<-|[]]. red. apply HD; auto. now left.
    + destruct (Nat.ltb_spec (S (length d)) (length kb0)) as [E|E]; [|simpl in LP; lia].
      apply wp_bind. replace (length kb0) with (length (d ++ x :: x2 :: r)) by (rewrite app_length; lia). remember (x2 :: r) as r' eqn:Er'. clear Er' r x2.
      assert (forall p, In p (d ++ x :: r') -> length (block p) = lblock) as HL'. { intros p Hp. apply HL. eapply Permutation_in; [symmetry; exact HP|auto]. }
      eapply select_block_wp; auto. intros e1 y e2 Ee HY.
      replace (S (length d) - 1) with (length d) by lia. destruct e1 as [|x' e1].
      * simpl in Ee. inversion Ee; subst y e2; clear Ee. simpl length. rewrite Nat.add_0_r, Nat.eqb_refl. apply wp_ret. split; [|rewrite ?app_length in *; simpl length in *; lia].
        exists (d ++ [x]), r'. rewrite <- app_assoc. simpl app. cj; auto; [rewrite app_length; simpl; lia| |].
        -- apply sorted_app. split; [auto|split; [apply sorted_one|]]. intros a b Ha [<-|[]]. red. apply HD; auto. now left.
        -- intros a b Ha Hb. apply in_app_iff in Ha as [Ha|[<-|[]]]. { apply HD; auto. now right. } apply HY. now right.
      * simpl in Ee. inversion Ee; subst x' r'; clear Ee. simpl length. replace (length d + S (length e1) =? length d) with false by (symmetry; apply Nat.eqb_neq; lia).
        apply wp_bind.
        match goal with |- wp (swap_ranges ?a ?b ?c) _ ?m => 
          assert (wp (swap_ranges a b c ;; swap (length kp + length d) (length kp + (length d + S (length e1)))) (fun _ m' => m' = kmem (d ++ y :: e1 ++ x :: e2) kp mid post) m) as HSW end.
        { apply swap_in_kmem_wp with (lblock := lblock); auto. }
        unfold wp at 1, bind in HSW. unfold wp at 1. 
        destruct (swap_ranges _ _ _ _) as [v m1| |]; auto. apply wp_bind. eapply wp_mono; [exact HSW|]. intros _ m2 ->. apply wp_ret.
        assert (Permutation kb0 (d ++ y :: e1 ++ x :: e2)) as HP'.
        { rewrite HP. apply Permutation_app_head. transitivity (x :: y :: e1 ++ e2). { constructor. symmetry. apply Permutation_middle. } etransitivity; [apply perm_swap|]. constructor. apply Permutation_middle. }
        split; [|rewrite ?app_length in *; simpl length in *; rewrite ?app_length in *; simpl length in *; lia].
        exists (d ++ [y]), (e1 ++ x :: e2). rewrite <- app_assoc. simpl app. cj; auto; [rewrite app_length; simpl; lia| | |].
        -- apply sorted_app. split; [auto|split; [apply sorted_one|]]. intros a b Ha [<-|[]]. red. apply HD; auto. right. apply in_app_iff. right. now left.
        -- intros a b Ha Hb. assert (In b (x :: e1 ++ y :: e2)) as Hb'. { apply in_app_iff in Hb as [Hb|[->|Hb]]; [right|now left|right]; apply in_app_iff; auto. right. now right. }
           apply in_app_iff in Ha as [Ha|[<-|[]]]; auto.
        -- destruct HM as [HM1 HM2]. assert (length (d ++ x :: e1 ++ y :: e2) = length kb0) as LK by (rewrite (Permutation_length HP); auto).
           assert (length (d ++ x :: e1 ++ y :: e2) = length d + S (length e1 + S (length e2))) as LK2 by (rewrite app_length; simpl; rewrite app_length; simpl; lia).
           assert (nth_error (d ++ y :: e1 ++ x :: e2) (length d) = Some y) as N1 by now apply nth_at.
           assert (nth_error (d ++ y :: e1 ++ x :: e2) (length d + S (length e1)) = Some x) as N2 by now apply nth_at2.
           assert (nth_error (d ++ x :: e1 ++ y :: e2) (length d) = Some x) as N3 by now apply nth_at.
           assert (nth_error (d ++ x :: e1 ++ y :: e2) (length d + S (length e1)) = Some y) as N4 by now apply nth_at2.
           split.
           ++ intros p Hp. destruct (HM1 p Hp) as (q & Hq & Eq). exists q. split; auto.
              destruct (Nat.eqb_spec mk (length d)) as [->|M1]; simpl orb; cbv iota.
              { rewrite <- Nat.lxor_assoc, Nat.lxor_nilpotent, Nat.lxor_0_l. congruence. }
              destruct (Nat.eqb_spec mk (length d + S (length e1))) as [->|M2].
              { rewrite (Nat.lxor_comm (length d)), <- Nat.lxor_assoc, Nat.lxor_nilpotent, Nat.lxor_0_l. congruence. }
              rewrite <- Hq. clear - M1 M2.
              destruct (Nat.lt_ge_cases mk (length d)) as [L|L]. { rewrite !nth_error_app1 by lia. auto. }
              rewrite !(nth_error_app2 d) by lia. destruct (mk - length d) as [|i] eqn:Ei; [lia|]. unfold nth_error; fold (@nth_error kblk).
              destruct (Nat.lt_ge_cases i (length e1)) as [L'|L']. { rewrite !nth_error_app1 by lia. auto. }
              rewrite !(nth_error_app2 e1) by lia. destruct (i - length e1) as [|j] eqn:Ej; [lia|]. reflexivity.
           ++ intros Hk. specialize (HM2 Hk). subst mk. replace ((mk0 =? length d) || (mk0 =? length d + S (length e1))) with false; auto.
              symmetry. apply orb_false_iff. split; apply Nat.eqb_neq; lia.
Qed.
End Blocks.
