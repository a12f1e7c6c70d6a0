(** grail_sort: the merges without a buffer, and the merges that stop at the end of one of the ranges. *)
From Coq Require Import List Arith Lia Permutation Bool ZArith.
From Verif Require Import Spec.Order Lang.Mem Proofs.Wp Proofs.OrderLib Model.Rotate Proofs.Rotate Proofs.RotateGcd Model.Search Proofs.Search Model.Grail Proofs.GrailMerge.
Import ListNotations.
Local Arguments nth_error : simpl never.
Local Arguments upd : simpl never.
Local Arguments loop : simpl never.

Lemma list_eq_nil_dec : forall {X} (l : list X), {l = []} + {l <> []}.
Proof. intros X [|x l]; [now left|right; discriminate]. Defined.

Section Smart.
Context {A T : Type} (comp : T -> T -> bool) (proj : A -> T) (triv : bool).
Notation lt := (by_proj comp proj).
Implicit Types (pre post G : mem A).
Hypothesis HW : strict_weak_order lt.

(** The loops that skip elements. *)
Lemma skip_wp : forall (f : Z -> bool) x l y v pre post first middle (Q : nat -> mem A -> Prop),
  first = length pre -> middle = first + length (x :: l) -> f (compare comp proj x y) = true ->
  (forall c l', x :: l = c ++ l' -> c <> [] -> (forall z, In z c -> f (compare comp proj z y) = true) -> Q (first + length c) (pre ++ map Val (x :: l) ++ map Val (y :: v) ++ post)) ->
  wp (loop (S (middle - first)) (fun first =>
    let first := S first in
    if first =? middle then ret (inr first) else
    let* c := compare_at comp proj first middle in
    if f c then ret (inl first) else ret (inr first)) first) Q (pre ++ map Val (x :: l) ++ map Val (y :: v) ++ post).
Proof.
  intros f x l y v pre post first middle Q -> -> HF HQ.
  apply wp_loop' with
    (I := fun k m => m = pre ++ map Val (x :: l) ++ map Val (y :: v) ++ post /\ exists c d l', x :: l = c ++ d :: l' /\ k = length pre + length c /\
      (forall z, In z (c ++ [d]) -> f (compare comp proj z y) = true))
    (mu := fun k => length pre + length (x :: l) - k).
  - split; auto. exists [], x, l. cj; auto. intros z [<-|[]]; auto.
  - lens.
  - intros k m (-> & c & d & l' & E & -> & HC). cbv beta zeta.
    assert (length (x :: l) = length c + S (length l')) as EL by (rewrite E, app_length; simpl; lia).
    destruct (Nat.eqb_spec (S (length pre + length c)) (length pre + length (x :: l))) as [E1|E1].
    + apply wp_ret. replace (S (length pre + length c)) with (length pre + length (c ++ [d])) by lens.
      apply HQ with (l' := l'); auto. { now rewrite <- app_assoc. } destruct c; discriminate.
    + destruct l' as [|d' l']. { lens. }
      rewrite E. apply wp_bind. reshape ((pre ++ map Val (c ++ [d])) ++ Val d' :: map Val l' ++ Val y :: map Val v ++ post).
      simpl length in EL. eapply wp_compare_2; [lens|lens|]. destruct (f (compare comp proj d' y)) eqn:EF.
      * apply wp_ret. split; [|lens]. split. { solve_app. } exists (c ++ [d]), d', l'. cj; auto; [solve_app|lens|].
        intros z Hz. apply in_app_iff in Hz as [Hz|[<-|[]]]; auto.
      * apply wp_ret. replace (S (length pre + length c)) with (length pre + length (c ++ [d])) by lens.
        replace ((pre ++ map Val (c ++ [d])) ++ Val d' :: map Val l' ++ Val y :: map Val v ++ post) with (pre ++ map Val (x :: l) ++ map Val (y :: v) ++ post) by (rewrite E; solve_app).
        apply HQ with (l' := d' :: l'); auto. { rewrite E. solve_app. } destruct c; discriminate.
Qed.

Lemma skip_right_wp : forall l x r y pre post middle last (Q : nat -> mem A -> Prop), sorted lt (l ++ [x]) ->
  middle = length pre + length (l ++ [x]) -> last = middle + length (r ++ [y]) -> lt y x = false ->
  (forall r' s, r ++ [y] = r' ++ s -> s <> [] -> (forall w z, In w (l ++ [x]) -> In z s -> lt z w = false) -> Q (middle + length r') (pre ++ map Val (l ++ [x]) ++ map Val (r ++ [y]) ++ post)) ->
  wp (skip_right comp proj middle last) Q (pre ++ map Val (l ++ [x]) ++ map Val (r ++ [y]) ++ post).
Proof.
  intros l x r y pre post middle last Q HS -> -> HF HQ. unfold skip_right.
  apply wp_loop' with
    (I := fun k m => m = pre ++ map Val (l ++ [x]) ++ map Val (r ++ [y]) ++ post /\ exists r' d s, r ++ [y] = r' ++ d :: s /\
      k = length pre + length (l ++ [x]) + S (length r') /\ (forall z, In z (d :: s) -> lt z x = false))
    (mu := fun k => k - (length pre + length (l ++ [x]))).
  - split; auto. exists r, y, []. cj; auto; [lens|]. intros z [<-|[]]; auto.
  - lens.
  - intros k m (-> & r' & d & s & E & -> & HC). cbv beta zeta.
    assert (forall w z, In w (l ++ [x]) -> In z (d :: s) -> lt z w = false) as HCC.
    { intros w z Hw Hz. assert (le lt w x) as H1 by (eapply sorted_last_max; eauto). exact (le_trans lt HW w x z H1 (HC z Hz)). }
    replace (length pre + length (l ++ [x]) + S (length r') - 1) with (length pre + length (l ++ [x]) + length r') by lia.
    destruct (Nat.eqb_spec (length pre + length (l ++ [x])) (length pre + length (l ++ [x]) + length r')) as [E1|E1].
    + apply wp_ret. eapply HQ with (s := d :: s); eauto. discriminate.
    + destruct (@exists_last _ r') as (r2 & d' & ->). { intros ->. simpl in E1. lia. }
      rewrite E. apply wp_bind. reshape ((pre ++ map Val l) ++ Val x :: map Val r2 ++ Val d' :: map Val (d :: s) ++ post).
      eapply wp_compare_2; [lens|lens|]. rewrite (compare_le _ _ HW). destruct (lt d' x) eqn:EF; simpl negb; cbv iota.
      * apply wp_ret.
        replace ((pre ++ map Val l) ++ Val x :: map Val r2 ++ Val d' :: map Val (d :: s) ++ post) with (pre ++ map Val (l ++ [x]) ++ map Val (r ++ [y]) ++ post) by (rewrite E; solve_app).
        eapply HQ with (s := d :: s); eauto. discriminate.
      * apply wp_ret. split; [|lens]. split. { solve_app. } exists r2, d', (d :: s). cj; auto; [solve_app|lens|].
        intros z [<-|Hz]; auto.
Qed.

Lemma merge_without_buffer_wp : forall L R pre post first middle last (Q : unit -> mem A -> Prop), sorted lt L -> sorted lt R ->
  first = length pre -> middle = first + length L -> last = middle + length R ->
  Q tt (pre ++ map Val (merge lt L R) ++ post) ->
  wp (merge_without_buffer comp proj triv first middle last) Q (pre ++ map Val L ++ map Val R ++ post).
Proof.
  intros L R pre post first middle last Q SL SR -> -> -> HQ. unfold merge_without_buffer.
  match goal with |- wp (if ?b then _ else _) _ _ => destruct b end.
  - apply wp_loop' with
      (I := fun '(first, middle) m => exists O L' R', m = pre ++ map Val O ++ map Val L' ++ map Val R' ++ post /\ O ++ merge lt L' R' = merge lt L R /\
         sorted lt L' /\ sorted lt R' /\ first = length pre + length O /\ middle = first + length L' /\ length O + length L' + length R' = length L + length R)
      (mu := fun '(first, middle) => middle - first).
    + exists [], L, R. cj; auto; lens.
    + lia.
    + intros [first middle] m (O & L' & R' & -> & HM & SL' & SR' & -> & -> & HL).
      destruct L' as [|x l].
      { simpl length. rewrite Nat.add_0_r, Nat.eqb_refl. apply wp_ret. rewrite merge_nil_l in HM. rewrite <- HM in HQ.
        replace (pre ++ map Val O ++ map Val [] ++ map Val R' ++ post) with (pre ++ map Val (O ++ R') ++ post) by solve_app. exact HQ. }
      match goal with |- wp (if ?b then _ else _) _ _ => destruct b eqn:E1 end; [apply Nat.eqb_eq in E1; lens|]. clear E1.
      apply wp_bind. reshape ((pre ++ map Val O) ++ Val x :: (map Val l ++ map Val R' ++ post)). apply wp_get_at; [lens|].
      apply wp_bind. reshape ((pre ++ map Val O ++ map Val (x :: l)) ++ map Val R' ++ post). apply lower_bound_wp; [lens|lens|].
      intros u v [E HP]. destruct HP as [HU HV]; [exact (mono_lt lt HW R' x SR')|]. subst R'.
      assert (O ++ u ++ merge lt (x :: l) v = merge lt L R) as HM'.
      { rewrite <- HM. f_equal. symmetry. apply merge_start_r. intros x' y' Hx' Hy'. eapply lt_le_trans; [exact HW|exact (HU y' Hy')|]. eapply sorted_head_min; eauto. }
      apply wp_bind.
      match goal with |- wp _ ?K _ => assert (K (length pre + length O + length u, length pre + length O + length (x :: l) + length u) ((pre ++ map Val (O ++ u)) ++ map Val (x :: l) ++ map Val v ++ post)) as HK end.
      { clear HM. destruct v as [|y v].
        - match goal with |- wp (if ?b then _ else _) _ _ => destruct b eqn:E1 end; [|apply Nat.eqb_neq in E1; lens].
          apply wp_ret. rewrite merge_nil_r in HM'. rewrite <- HM' in HQ.
          replace ((pre ++ map Val (O ++ u)) ++ map Val (x :: l) ++ map Val [] ++ post) with (pre ++ map Val (O ++ u ++ x :: l) ++ post) by solve_app. exact HQ.
        - match goal with |- wp (if ?b then _ else _) _ _ => destruct b eqn:E1 end; [apply Nat.eqb_eq in E1; lens|].
          apply wp_bind. unfold skip_left. rewrite app_length in HL.
          apply (skip_wp (fun c => (c <=? 0)%Z)); [lens|lens| |].
          { rewrite (compare_le _ _ HW). assert (lt y x = false) as -> by (apply HV; now left). reflexivity. }
          intros c l' E HN HC. apply wp_ret.
          assert (length (x :: l) = length c + length l') as EL by (rewrite E, app_length; lia).
          assert (length c <> 0) by (destruct c; [congruence|simpl; lia]). split; [|lens].
          exists (O ++ u ++ c), l', (y :: v). apply sorted_app in SR' as (_ & SV & _). cj; auto.
          + rewrite E. solve_app.
          + rewrite <- HM'. rewrite E. rewrite merge_start_l. { solve_app. }
            intros x0 y0 Hx Hy. specialize (HC _ Hx). rewrite (compare_le _ _ HW) in HC. apply negb_true_iff in HC.
            exact (le_trans lt HW x0 y y0 HC (sorted_head_min _ _ HW _ _ _ SV Hy)).
          + rewrite E in SL'. eapply sorted_app_r; eauto.
          + lens.
          + lens.
          + lens. }
      destruct (Nat.eqb_spec (length pre + length O + length (x :: l) + length u) (length pre + length O + length (x :: l))) as [E1|E1].
      * assert (u = []) as -> by (destruct u; auto; simpl in E1; lia). apply wp_ret. simpl length in *. rewrite !Nat.add_0_r in HK.
        replace ((pre ++ map Val O ++ map Val (x :: l)) ++ map Val ([] ++ v) ++ post) with ((pre ++ map Val (O ++ [])) ++ map Val (x :: l) ++ map Val v ++ post) by solve_app. exact HK.
      * apply wp_bind. unfold rotate_ra. reshape ((pre ++ map Val O) ++ map Val ((x :: l) ++ u) ++ map Val v ++ post).
        apply rotate_wp; [lens|lens|lens|]. apply wp_ret.
        replace (length pre + length O + length (x :: l) + length u - (length pre + length O + length (x :: l))) with (length u) by lia.
        replace ((pre ++ map Val O) ++ map Val (u ++ x :: l) ++ map Val v ++ post) with ((pre ++ map Val (O ++ u)) ++ map Val (x :: l) ++ map Val v ++ post) by solve_app. exact HK.
  - apply wp_loop' with
      (I := fun '(middle, last) m => exists O L' R', m = pre ++ map Val L' ++ map Val R' ++ map Val O ++ post /\ merge lt L' R' ++ O = merge lt L R /\
         sorted lt L' /\ sorted lt R' /\ middle = length pre + length L' /\ last = middle + length R' /\ length O + length L' + length R' = length L + length R)
      (mu := fun '(middle, last) => last - middle).
    + exists [], L, R. rewrite app_nil_r. cj; auto; lens.
    + lia.
    + intros [middle last] m (O & L' & R' & -> & HM & SL' & SR' & -> & -> & HL).
      destruct (list_eq_nil_dec R') as [->|HN].
      { simpl length. rewrite Nat.add_0_r, Nat.eqb_refl. apply wp_ret. rewrite merge_nil_r in HM. rewrite <- HM in HQ.
        replace (pre ++ map Val L' ++ map Val [] ++ map Val O ++ post) with (pre ++ map Val (L' ++ O) ++ post) by solve_app. exact HQ. }
      destruct (exists_last HN) as (r & y & ->). clear HN.
      match goal with |- wp (if ?b then _ else _) _ _ => destruct b eqn:E1 end; [apply Nat.eqb_eq in E1; lens|]. clear E1.
      apply wp_bind. reshape ((pre ++ map Val L' ++ map Val r) ++ Val y :: (map Val O ++ post)). apply wp_get_at; [lens|].
      apply wp_bind. reshape (pre ++ map Val L' ++ map Val (r ++ [y]) ++ map Val O ++ post). apply upper_bound_wp; [lens|lens|].
      intros u v [E HP]. destruct HP as [HU HV]; [exact (mono_ngt lt HW L' y SL')|]. subst L'.
      assert (merge lt u (r ++ [y]) ++ v ++ O = merge lt L R) as HM'.
      { rewrite <- HM, app_assoc. f_equal. symmetry. apply merge_end_l. intros z w Hz Hw. specialize (HV _ Hz). apply negb_false_iff in HV.
        eapply le_lt_trans; [exact HW| |exact HV]. eapply sorted_last_max; eauto. }
      apply wp_bind.
      match goal with |- wp _ ?K _ => assert (K (length pre + length u, length pre + length u + length (r ++ [y])) (pre ++ map Val u ++ map Val (r ++ [y]) ++ map Val (v ++ O) ++ post)) as HK end.
      { clear HM. destruct (list_eq_nil_dec u) as [->|HN].
        - match goal with |- wp (if ?b then _ else _) _ _ => destruct b eqn:E1 end; [|apply Nat.eqb_neq in E1; lens].
          apply wp_ret. rewrite merge_nil_l in HM'. rewrite <- HM' in HQ.
          replace (pre ++ map Val [] ++ map Val (r ++ [y]) ++ map Val (v ++ O) ++ post) with (pre ++ map Val ((r ++ [y]) ++ v ++ O) ++ post) by solve_app. exact HQ.
        - destruct (exists_last HN) as (l & x & ->). clear HN.
          match goal with |- wp (if ?b then _ else _) _ _ => destruct b eqn:E1 end; [apply Nat.eqb_eq in E1; lens|].
          apply wp_bind. rewrite !app_length in HL. simpl length in HL. apply sorted_app in SL' as (SL' & _ & _).
          apply skip_right_wp; [exact SL'|lens|lens| |].
          { assert (In x (l ++ [x])) as Hi by (apply in_app_iff; right; now left). specialize (HU _ Hi). now apply negb_true_iff in HU. }
          intros r' s E HN HC. apply wp_ret.
          assert (length r + 1 = length r' + length s) as EL by (rewrite <- app_length, <- E, app_length; simpl; lia).
          assert (length s <> 0) by (destruct s; [congruence|simpl; lia]). split; [|lens].
          exists (s ++ v ++ O), (l ++ [x]), r'. cj; auto.
          + rewrite E. solve_app.
          + rewrite <- HM'. rewrite E. rewrite merge_end_r. { solve_app. } exact HC.
          + rewrite E in SR'. eapply sorted_app_l; eauto.
          + lens. }
      destruct (Nat.eqb_spec (length pre + length u) (length pre + length (u ++ v))) as [E1|E1].
      * assert (v = []) as -> by (destruct v; auto; rewrite app_length in E1; simpl in E1; lia). apply wp_ret. rewrite !app_nil_r in *. exact HK.
      * apply wp_bind. unfold rotate_ra. reshape ((pre ++ map Val u) ++ map Val (v ++ r ++ [y]) ++ map Val O ++ post).
        apply rotate_wp; [lens|lens|lens|]. apply wp_ret.
        replace (length pre + length (u ++ v) - (length pre + length (u ++ v) - (length pre + length u))) with (length pre + length u) by lens.
        replace (length pre + length (u ++ v) + length (r ++ [y]) - (length pre + length (u ++ v) - (length pre + length u))) with (length pre + length u + length (r ++ [y])) by lens.
        replace ((pre ++ map Val u) ++ map Val ((r ++ [y]) ++ v) ++ map Val O ++ post) with (pre ++ map Val u ++ map Val (r ++ [y]) ++ map Val (v ++ O) ++ post) by solve_app. exact HK.
Qed.

(** Whether an element of a range of the stream [t] is before one of a range of the other stream. *)
Definition before (t : Z) (x y : A) : bool := if (t =? 0)%Z then negb (lt y x) else lt x y.
(** The merge of two ranges, of which the first is of the stream [t], until one of them is empty: what comes out, what is left over and the stream
    of that. *)
Inductive smart (t : Z) : list A -> list A -> list A -> list A -> Z -> Prop :=
| smart_l : forall R, smart t [] R [] R (1 - t)
| smart_r : forall L, smart t L [] [] L t
| smart_x : forall x L y R O W w, before t x y = true -> smart t L (y :: R) O W w -> smart t (x :: L) (y :: R) (x :: O) W w
| smart_y : forall x L y R O W w, before t x y = false -> smart t (x :: L) R O W w -> smart t (x :: L) (y :: R) (y :: O) W w.

Lemma smart_length : forall t L R O W w, smart t L R O W w -> length O + length W = length L + length R.
Proof. induction 1; simpl in *; lia. Qed.
Lemma smart_stream : forall t L R O W w, smart t L R O W w -> w = t \/ w = (1 - t)%Z.
Proof. induction 1; auto. Qed.
Lemma smart_skip_l : forall t u y L R O W w, (forall x, In x u -> before t x y = true) -> smart t L (y :: R) O W w -> smart t (u ++ L) (y :: R) (u ++ O) W w.
Proof.
  induction u as [|x u IH]; intros y L R O W w HU HS; auto. simpl. apply smart_x. { apply HU. now left. } apply IH; auto. intros; apply HU; now right.
Qed.
Lemma smart_skip_r : forall t u x L R O W w, (forall y, In y u -> before t x y = false) -> smart t (x :: L) R O W w -> smart t (x :: L) (u ++ R) (u ++ O) W w.
Proof.
  induction u as [|y u IH]; intros x L R O W w HU HS; auto. simpl. apply smart_y. { apply HU. now left. } apply IH; auto. intros; apply HU; now right.
Qed.
(** The two streams in their order. *)
Definition mergez (t : Z) (X Y : list A) : list A := if (t =? 0)%Z then merge lt X Y else merge lt Y X.
Lemma smart_merge_eq : forall t L R O W w, smart t L R O W w -> (t = 0%Z \/ t = 1%Z) -> forall X Y,
  mergez t (L ++ X) (R ++ Y) = O ++ (if (w =? t)%Z then mergez t (W ++ X) Y else mergez t X (W ++ Y)).
Proof.
  induction 1 as [R|L|x L y R O W w HB HS IH|x L y R O W w HB HS IH]; intros Ht X Y.
  - destruct (Z.eqb_spec (1 - t) t); [lia|]. reflexivity.
  - now rewrite Z.eqb_refl.
  - specialize (IH Ht X Y). unfold mergez, before in *. destruct (t =? 0)%Z.
    + apply negb_true_iff in HB. cbn [app] in *. rewrite merge_cons, HB. f_equal. exact IH.
    + cbn [app] in *. rewrite merge_cons, HB. f_equal. exact IH.
  - specialize (IH Ht X Y). unfold mergez, before in *. destruct (t =? 0)%Z.
    + apply negb_false_iff in HB. cbn [app] in *. rewrite merge_cons, HB. f_equal. exact IH.
    + cbn [app] in *. rewrite merge_cons, HB. f_equal. exact IH.
Qed.

Lemma compare_before : forall t x y, (t = 0%Z \/ t = 1%Z) -> (compare comp proj x y - (1 - t) <? 0)%Z = before t x y.
Proof.
  intros t x y [->| ->]; unfold before; simpl (_ =? _)%Z; cbv iota.
  - rewrite <- (compare_le _ _ HW). apply Bool.eq_iff_eq_true. rewrite Z.ltb_lt, Z.leb_le. lia.
  - rewrite <- compare_neg. f_equal. lia.
Qed.

Lemma shift_end_wp : forall ext buf G L pre post left_it middle last (Q : unit -> mem A -> Prop), gapok ext buf G -> G <> [] -> L <> [] ->
  left_it = length pre -> middle = left_it + length L -> last = middle + length G ->
  (forall G', gapok ext buf G' -> Q tt (pre ++ G' ++ map Val L ++ post)) ->
  wp (loop (S (middle - left_it)) (fun '(middle, last) =>
      let middle := middle - 1 in
      let last := last - 1 in
      transfer ext last middle ;;
      if left_it =? middle then ret (inr tt) else ret (inl (middle, last))) (middle, last)) Q (pre ++ map Val L ++ G ++ post).
Proof.
  intros ext buf G L pre post left_it middle last Q HG HNG HNL -> -> -> HQ.
  apply wp_loop' with
    (I := fun '(middle, last) m => exists L1 L2 G', L = L1 ++ L2 /\ L1 <> [] /\ gapok ext buf G' /\ m = pre ++ map Val L1 ++ G' ++ map Val L2 ++ post /\
       middle = length pre + length L1 /\ last = middle + length G)
    (mu := fun '(middle, last) => middle - length pre).
  - exists L, [], G. rewrite app_nil_r. cj; auto.
  - lia.
  - intros [middle last] m (L1 & L2 & G' & -> & HN & HG' & -> & -> & ->). cbv beta zeta.
    destruct (exists_last HN) as (l & x & ->). clear HN.
    assert (length G' = length G) as EG by (rewrite (gapok_len _ _ _ HG), (gapok_len _ _ _ HG'); auto).
    destruct (@exists_last _ G') as (g & c & ->). { intros ->. destruct G; [congruence|discriminate EG]. }
    apply wp_bind. reshape ((pre ++ map Val l) ++ Val x :: g ++ c :: map Val L2 ++ post).
    eapply transfer_right_wp with (g := g); [|lens|lens|]. { eapply gapok_perm; [exact HG'|]. symmetry. apply Permutation_cons_append. }
    intros c' Hc'. destruct (Nat.eqb_spec (length pre) (length pre + length (l ++ [x]) - 1)) as [E|E].
    + apply wp_ret. assert (l = []) as -> by (destruct l; auto; lens).
      replace ((pre ++ map Val []) ++ c' :: g ++ Val x :: map Val L2 ++ post) with (pre ++ (c' :: g) ++ map Val (([] ++ [x]) ++ L2) ++ post) by solve_app. auto.
    + apply wp_ret. split; [|lens]. exists l, (x :: L2), (c' :: g). cj; auto; [solve_app| |solve_app|lens|lens].
      intros ->. simpl in E. lia.
Qed.

Lemma smart_merge_with_buffer_wp : forall ext buf G L R t pre post first middle last (Q : nat * Z -> mem A -> Prop), gapok ext buf G -> G <> [] -> length R = length G -> (t = 0%Z \/ t = 1%Z) ->
  first = length pre + length G -> middle = first + length L -> last = middle + length R ->
  (forall O W w G', smart t L R O W w -> gapok ext buf G' -> Q (length W, w) (pre ++ map Val O ++ G' ++ map Val W ++ post)) ->
  wp (smart_merge_with_buffer comp proj ext first middle last (length G) t) Q (pre ++ G ++ map Val L ++ map Val R ++ post).
Proof.
  intros ext buf G L R t pre post first middle last Q HG HNG HR Ht -> -> -> HQ. unfold smart_merge_with_buffer.
  apply wp_bind.
  apply wp_loop' with
    (I := fun '(left_it, right_it, out) m => exists O G1 L' G2 R', m = pre ++ map Val O ++ G1 ++ map Val L' ++ G2 ++ map Val R' ++ post /\
       gapok ext buf (G1 ++ G2) /\ (forall O' W w, smart t L' R' O' W w -> smart t L R (O ++ O') W w) /\ length O + length L' + length R' = length L + length R /\
       length G2 + length R' = length R /\ out = length pre + length O /\ left_it = out + length G1 /\
       right_it = left_it + length L' + length G2)
    (mu := fun '(left_it, right_it, out) => length pre + length L + length R - out).
  - exists [], G, L, [], R. rewrite app_nil_r. cj; auto; try (simpl; lia).
  - lia.
  - intros [[left_it right_it] out] m (O & G1 & L' & G2 & R' & -> & HG1 & HM & HO & H2 & -> & -> & ->).
    pose proof (gapok_len _ _ _ HG) as EG. pose proof (gapok_len _ _ _ HG1) as EG1. rewrite app_length in EG1.
    destruct L' as [|x l]; [|destruct R' as [|y r]].
    + match goal with |- wp (if ?b then _ else _) _ _ => destruct b eqn:E end; [|apply orb_false_iff in E as [E _]; apply Nat.eqb_neq in E; simpl length in *; lia].
      apply wp_ret. destruct (Nat.ltb_spec (length pre + length O + length G1) (length pre + length G + length L)) as [E1|E1]; [simpl length in *; lia|].
      apply wp_ret. replace (length pre + length G + length L + length R - (length pre + length O + length G1 + length (@nil A) + length G2)) with (length R') by (simpl; lia).
      replace (pre ++ map Val O ++ G1 ++ map Val [] ++ G2 ++ map Val R' ++ post) with (pre ++ map Val (O ++ []) ++ (G1 ++ G2) ++ map Val R' ++ post) by solve_app.
      apply HQ; auto. apply HM. constructor.
    + match goal with |- wp (if ?b then _ else _) _ _ => destruct b eqn:E end; [|apply orb_false_iff in E as [_ E]; apply Nat.eqb_neq in E; simpl length in *; lia].
      apply wp_ret. destruct (Nat.ltb_spec (length pre + length O + length G1) (length pre + length G + length L)) as [E1|E1]; [|simpl length in *; lia].
      apply wp_bind. destruct (gapok_part ext buf G2 G1) as (b1 & HB1 & HB2). { eapply gapok_perm; [exact HG1|apply Permutation_app_comm]. }
      simpl length in *.
      reshape ((pre ++ map Val O ++ G1) ++ map Val (x :: l) ++ G2 ++ post).
      eapply shift_end_wp; [exact HB1| |discriminate|lens|lens|lens|].
      { intros ->. simpl in H2. destruct G; [congruence|simpl length in *; lia]. }
      intros G' HG'. apply wp_ret.
      replace (length pre + length G + length L - (length pre + length O + length G1)) with (length (x :: l)) by (simpl length; lia).
      replace ((pre ++ map Val O ++ G1) ++ G' ++ map Val (x :: l) ++ post) with (pre ++ map Val (O ++ []) ++ (G1 ++ G') ++ map Val (x :: l) ++ post) by solve_app.
      apply HQ. { apply HM. constructor. } eapply gapok_perm; [exact (HB2 _ HG')|]. apply Permutation_app_comm.
    + match goal with |- wp (if ?b then _ else _) _ _ => destruct b eqn:E end.
      { apply orb_true_iff in E as [E|E]; apply Nat.eqb_eq in E; simpl length in *; lia. }
      clear E. apply wp_bind. simpl length in *. reshape ((pre ++ map Val O ++ G1) ++ Val x :: (map Val l ++ G2) ++ Val y :: map Val r ++ post).
      eapply wp_compare_2; [lens|lens|]. rewrite compare_before by auto.
      destruct G1 as [|c g]. { simpl length in *. lia. }
      destruct (before t x y) eqn:EB.
      * apply wp_bind. reshape ((pre ++ map Val O) ++ c :: g ++ Val x :: map Val l ++ G2 ++ Val y :: map Val r ++ post).
        simpl length in *. eapply transfer_left_wp; [exact HG1|lens|lens|]. intros c' Hc'. apply wp_ret. split; [|lens].
        exists (O ++ [x]), (g ++ [c']), l, G2, (y :: r). cj; try (lens; fail); [solve_app| |].
        -- eapply gapok_perm; [exact Hc'|]. rewrite <- app_assoc. simpl. apply Permutation_middle.
        -- intros O' W w HS. rewrite <- app_assoc. apply HM. now constructor.
      * apply wp_bind. reshape ((pre ++ map Val O) ++ c :: (g ++ Val x :: map Val l ++ G2) ++ Val y :: map Val r ++ post).
        simpl length in *. eapply transfer_left_wp; [exact HG1|lens|lens|]. intros c' Hc'. apply wp_ret. split; [|lens].
        exists (O ++ [y]), g, (x :: l), (G2 ++ [c']), r. cj; try (lens; fail); [solve_app| |].
        -- eapply gapok_perm; [exact Hc'|]. rewrite app_assoc. apply Permutation_cons_append.
        -- intros O' W w HS. rewrite <- app_assoc. apply HM. now constructor.
Qed.

Lemma smart_merge_without_buffer_wp : forall L R t pre post first middle last (Q : nat * Z -> mem A -> Prop), (t = 0%Z \/ t = 1%Z) -> sorted lt L -> sorted lt R ->
  first = length pre -> middle = first + length L -> last = middle + length R ->
  (forall O W w, smart t L R O W w -> Q (length W, w) (pre ++ map Val O ++ map Val W ++ post)) ->
  wp (smart_merge_without_buffer comp proj triv first middle last t) Q (pre ++ map Val L ++ map Val R ++ post).
Proof.
  intros L R t pre post first middle last Q Ht SL SR -> -> -> HQ. unfold smart_merge_without_buffer.
  destruct R as [|y R].
  { simpl length. rewrite Nat.add_0_r, Nat.eqb_refl. apply wp_ret. replace (length pre + length L - length pre) with (length L) by lia.
    replace (pre ++ map Val L ++ map Val [] ++ post) with (pre ++ map Val [] ++ map Val L ++ post) by solve_app. apply HQ. constructor. }
  match goal with |- wp (if ?b then _ else _) _ _ => destruct b eqn:E end; [apply Nat.eqb_eq in E; lens|]. clear E.
  destruct (list_eq_nil_dec L) as [->|HN].
  { simpl length. rewrite Nat.add_0_r, Nat.eqb_refl. apply wp_bind. apply wp_ret. apply wp_ret.
    replace (length pre + S (length R) - length pre) with (length (y :: R)) by (simpl length; lia).
    apply (HQ [] (y :: R)). constructor. }
  destruct (exists_last HN) as (l & x & ->). clear HN.
  apply wp_bind. match goal with |- wp (if ?b then _ else _) _ _ => destruct b eqn:E end; [apply Nat.eqb_eq in E; lens|]. clear E.
  apply wp_bind. reshape ((pre ++ map Val l) ++ Val x :: [] ++ Val y :: map Val R ++ post). eapply wp_compare_2; [lens|lens|].
  apply wp_ret. rewrite Z.leb_antisym, compare_before by auto.
  destruct (before t x y) eqn:EB; simpl negb; cbv iota.
  { apply wp_ret. replace (length pre + length (l ++ [x]) + length (y :: R) - (length pre + length (l ++ [x]))) with (length (y :: R)) by lia.
    replace ((pre ++ map Val l) ++ Val x :: [] ++ Val y :: map Val R ++ post) with (pre ++ map Val ((l ++ [x]) ++ []) ++ map Val (y :: R) ++ post) by solve_app.
    apply HQ. replace (l ++ [x]) with ((l ++ [x]) ++ []) at 1 by apply app_nil_r. apply smart_skip_l; [|constructor].
    intros z Hz. assert (le lt z x) as Hzx by (eapply sorted_last_max; eauto). unfold before in *. destruct (t =? 0)%Z.
    - apply negb_true_iff in EB. apply negb_true_iff. exact (le_trans lt HW z x y Hzx EB).
    - eapply le_lt_trans; eauto. }
  reshape (pre ++ map Val (l ++ [x]) ++ map Val (y :: R) ++ post).
  remember (l ++ [x]) as L eqn:HL. clear HL EB. remember (y :: R) as R0 eqn:HR0. clear HR0. clear l x y R. rename R0 into R.
  apply wp_loop' with
      (I := fun '(first, middle) m => exists O L' R', m = pre ++ map Val O ++ map Val L' ++ map Val R' ++ post /\ (forall O' W w, smart t L' R' O' W w -> smart t L R (O ++ O') W w) /\
         sorted lt L' /\ sorted lt R' /\ first = length pre + length O /\ middle = first + length L' /\ length O + length L' + length R' = length L + length R)
      (mu := fun '(first, middle) => middle - first).
  - exists [], L, R. cj; auto; lens.
  - lia.
  - intros [first middle] m (O & L' & R' & -> & HM & SL' & SR' & -> & -> & HL).
    destruct L' as [|x l].
    { simpl length in *. rewrite Nat.add_0_r, Nat.eqb_refl. apply wp_ret.
      replace (length pre + length L + length R - (length pre + length O)) with (length R') by lia.
      replace (pre ++ map Val O ++ map Val [] ++ map Val R' ++ post) with (pre ++ map Val (O ++ []) ++ map Val R' ++ post) by solve_app. apply HQ. apply HM. constructor. }
    match goal with |- wp (if ?b then _ else _) _ _ => destruct b eqn:E1 end; [apply Nat.eqb_eq in E1; lens|]. clear E1.
    apply wp_bind. reshape ((pre ++ map Val O) ++ Val x :: (map Val l ++ map Val R' ++ post)). apply wp_get_at; [lens|].
    apply wp_bind. reshape ((pre ++ map Val O ++ map Val (x :: l)) ++ map Val R' ++ post).
    match goal with |- wp _ ?K ?m => assert (forall u v, R' = u ++ v -> (forall z, In z u -> before t x z = false) -> (forall z, In z v -> before t x z = true) ->
      K (length pre + length O + length (x :: l) + length u) m) as HK end.
    { intros u v -> HU HV.
      assert (forall O' W w, smart t (x :: l) v O' W w -> smart t L R (O ++ u ++ O') W w) as HM'.
      { intros O' W w HS. apply HM. now apply smart_skip_r. }
      clear HM.
      replace (length pre + length O + length (x :: l) + length u - (length pre + length O + length (x :: l))) with (length u) by lia.
      apply wp_bind.
      match goal with |- wp _ ?K _ => assert (K (length pre + length O + length u, length pre + length O + length (x :: l) + length u) ((pre ++ map Val (O ++ u)) ++ map Val (x :: l) ++ map Val v ++ post)) as HK end.
      { destruct v as [|y v].
        - match goal with |- wp (if ?b then _ else _) _ _ => destruct b eqn:E1 end; [|apply Nat.eqb_neq in E1; lens].
          apply wp_ret. 
          replace (length pre + length O + length (x :: l) + length u - (length pre + length O + length u)) with (length (x :: l)) by lia.
          replace ((pre ++ map Val (O ++ u)) ++ map Val (x :: l) ++ map Val [] ++ post) with (pre ++ map Val (O ++ u ++ []) ++ map Val (x :: l) ++ post) by solve_app.
          apply HQ. apply HM'. constructor.
        - match goal with |- wp (if ?b then _ else _) _ _ => destruct b eqn:E1 end; [apply Nat.eqb_eq in E1; lens|].
          apply wp_bind. unfold skip_frag. rewrite app_length in HL.
          apply (skip_wp (fun c => (c - (1 - t) <? 0)%Z)); [lens|lens| |].
          { rewrite compare_before by auto. apply HV. now left. }
          intros c l' E HN HC. apply wp_ret.
          assert (length (x :: l) = length c + length l') as EL by (rewrite E, app_length; lia).
          assert (length c <> 0) by (destruct c; [congruence|simpl; lia]). split; [|lens].
          exists (O ++ u ++ c), l', (y :: v). apply sorted_app in SR' as (_ & SV & _). cj; auto.
          + rewrite E. solve_app.
          + intros O' W w HS. replace ((O ++ u ++ c) ++ O') with (O ++ u ++ c ++ O') by solve_app. apply HM'. rewrite E. apply smart_skip_l; auto.
            intros z Hz. specialize (HC _ Hz). now rewrite compare_before in HC by auto.
          + rewrite E in SL'. eapply sorted_app_r; eauto.
          + lens.
          + lens.
          + lens. }
      destruct (Nat.eqb_spec (length u) 0) as [E1|E1].
      * assert (u = []) as -> by (destruct u; auto; discriminate). apply wp_ret. simpl length in *. rewrite !Nat.add_0_r in HK.
        replace ((pre ++ map Val O ++ map Val (x :: l)) ++ map Val ([] ++ v) ++ post) with ((pre ++ map Val (O ++ [])) ++ map Val (x :: l) ++ map Val v ++ post) by solve_app. exact HK.
      * apply wp_bind. unfold rotate_ra. reshape ((pre ++ map Val O) ++ map Val ((x :: l) ++ u) ++ map Val v ++ post).
        apply rotate_wp; [lens|lens|lens|]. apply wp_ret.
        replace ((pre ++ map Val O) ++ map Val (u ++ x :: l) ++ map Val v ++ post) with ((pre ++ map Val (O ++ u)) ++ map Val (x :: l) ++ map Val v ++ post) by solve_app. exact HK. }
    destruct Ht as [->| ->].
    + change (1 - 0 =? 0)%Z with false. cbv iota. apply lower_bound_wp; [lens|lens|].
      intros u v [E HP]. destruct HP as [HU HV]; [exact (mono_lt lt HW R' x SR')|]. apply (HK u v); auto.
      * intros z Hz. unfold before. simpl. unfold by_proj. now rewrite HU.
      * intros z Hz. unfold before. simpl. unfold by_proj. now rewrite HV.
    + change (1 - 1 =? 0)%Z with true. cbv iota. apply upper_bound_wp; [lens|lens|].
      intros u v [E HP]. destruct HP as [HU HV]; [exact (mono_ngt lt HW R' x SR')|]. apply (HK u v); auto.
      * intros z Hz. unfold before. simpl. apply negb_true_iff. now apply HU.
      * intros z Hz. unfold before. simpl. apply negb_false_iff. now apply HV.
Qed.
End Smart.
