(** Checking straight-line sorters: known inequalities between positions are propagated through the
    code and intersected where branches join. *)
From Coq Require Import List Arith Lia Bool NArith Permutation.
From Verif Require Import Spec.Order Lang.Mem Spec.Sorts Proofs.Wp Proofs.OrderLib Model.Basic Proofs.Basic
  Model.Straight Proofs.NetLib.
Import ListNotations.

(** Row [a] of a relation has bit [b] when the element at [a] is known not to be above that at [b]. *)
Definition rel := list N.
Definition row (R : rel) (a : nat) : N := nth a R 0%N.
Definition bit (x : N) (b : nat) : bool := N.testbit x (N.of_nat b).
Definition le_at (R : rel) (a b : nat) : bool := bit (row R a) b.

Section Check.
Variable n : nat.

Definition add (R : rel) (a b : nat) : rel :=
  let new := N.setbit (row R b) (N.of_nat b) in
  map (fun x => if (x =? a) || le_at R x a then N.lor (row R x) new else row R x) (seq 0 n).

Definition swap_bits (x : N) (a b : nat) : N :=
  if Bool.eqb (bit x a) (bit x b) then x
  else N.lxor x (N.setbit (N.setbit 0 (N.of_nat a)) (N.of_nat b)).

Definition tr (a b x : nat) : nat := if x =? a then b else if x =? b then a else x.

Definition swp (R : rel) (a b : nat) : rel :=
  map (fun x => swap_bits (row R (tr a b x)) a b) (seq 0 n).

Definition join (R R' : rel) : rel := map (fun x => N.land (row R x) (row R' x)) (seq 0 n).

Definition chain (lo hi : nat) : rel :=
  map (fun x => if (lo <=? x) && (x <? hi)
                then N.shiftl (N.ones (N.of_nat (hi - x))) (N.of_nat x) else 0%N) (seq 0 n).

Definition ok (R : rel) : bool := forallb (fun i => le_at R i (S i)) (seq 0 (n - 1)).

Definition merge_flag (f : bool) (l : list (bool * rel)) : option rel :=
  fold_right (fun '(g, R) acc => if Bool.eqb f g
                                then match acc with None => Some R | Some R' => Some (join R R') end
                                else acc) None l.

Definition opt_list {X} (f : bool) (o : option X) : list (bool * X) :=
  match o with None => [] | Some R => [(f, R)] end.

Definition merge_states (l : list (bool * rel)) : list (bool * rel) :=
  opt_list true (merge_flag true l) ++ opt_list false (merge_flag false l).

Fixpoint cyc (R : rel) (h : nat) (l : list nat) : rel :=
  match l with [] => R | j :: l => cyc (swp R h j) j l end.

Definition cyc0 (R : rel) (l : list nat) : rel := match l with [] => R | i :: l => cyc R i l end.

Fixpoint abs (c : code) (fl : bool) (R : rel) : option (list (bool * rel)) :=
  let all k := fix go l :=
    match l with
    | [] => Some []
    | (f, R) :: l => match abs k f R, go l with Some x, Some y => Some (x ++ y) | _, _ => None end
    end in
  match c with
  | End => Some [(fl, R)]
  | Return => if ok R then Some [] else None
  | SwapIf a b k => abs k fl (join (swp (add R b a) a b) (add R a b))
  | Swap a b k => abs k fl (swp R a b)
  | Cycle l k => abs k fl (cyc0 R l)
  | RotL n off k => abs k fl (cyc0 R (seq off n))
  | RotR n off k => abs k fl (cyc0 R (rev (seq off n)))
  | If a b t e k =>
      match abs t fl (add R a b), abs e fl (add R b a) with
      | Some l1, Some l2 => all k (merge_states (l1 ++ l2))
      | _, _ => None
      end
  | SetFlag b k => abs k b R
  | IfFlag t k =>
      match (if fl then abs t fl R else Some [(fl, R)]) with
      | Some l => all k l
      | None => None
      end
  end.

Definition all_states (k : code) : list (bool * rel) -> option (list (bool * rel)) :=
  fix go l :=
    match l with
    | [] => Some []
    | (f, R) :: l => match abs k f R, go l with Some x, Some y => Some (x ++ y) | _, _ => None end
    end.

Definition two (a b : nat) : bool := (a <? n) && (b <? n) && negb (a =? b).

Fixpoint wf_cycle (h : nat) (l : list nat) : bool :=
  match l with [] => h <? n | j :: l => two h j && wf_cycle j l end.

Definition wf_cycle0 (l : list nat) : bool := match l with [] => true | i :: l => wf_cycle i l end.

Fixpoint wf (c : code) : bool :=
  match c with
  | End | Return => true
  | SwapIf a b k | Swap a b k => two a b && wf k
  | Cycle l k => wf_cycle0 l && wf k
  | RotL n off k => wf_cycle0 (seq off n) && wf k
  | RotR n off k => wf_cycle0 (rev (seq off n)) && wf k
  | If a b t e k => two a b && wf t && wf e && wf k
  | SetFlag _ k => wf k
  | IfFlag t k => wf t && wf k
  end.

(** [c] sorts positions [0 .. n-1] given that [lo .. hi-1] are sorted. *)
Definition check_code (lo hi : nat) (c : code) : bool :=
  wf c && match abs c false (chain lo hi) with
          | Some l => forallb (fun s => ok (snd s)) l
          | None => false
          end.
End Check.

(** ** Soundness *)
Lemma row_map : forall n (g : nat -> N) a, a < n -> row (map g (seq 0 n)) a = g a.
Proof.
  intros n g a Ha. unfold row. rewrite (nth_indep _ 0%N (g 0)) by (rewrite map_length, seq_length; auto).
  rewrite map_nth, seq_nth; auto.
Qed.

Lemma bit_setbit : forall x a b, bit (N.setbit x (N.of_nat a)) b = (a =? b) || bit x b.
Proof.
  intros. unfold bit. rewrite N.setbit_eqb. f_equal.
  destruct (Nat.eqb_spec a b) as [->|H]; [apply N.eqb_refl|].
  apply N.eqb_neq. intros E. apply Nat2N.inj in E. auto.
Qed.

Lemma bit_swap_bits : forall x a b y, a <> b -> bit (swap_bits x a b) y = bit x (tr a b y).
Proof.
  intros x a b y Hab. unfold swap_bits, tr. destruct (Bool.eqb (bit x a) (bit x b)) eqn:E.
  - apply eqb_prop in E. destruct (Nat.eqb_spec y a) as [->|]; auto.
    destruct (Nat.eqb_spec y b) as [->|]; auto.
  - assert (bit x a <> bit x b) as E' by (intros H; rewrite H, eqb_reflx in E; discriminate).
    unfold bit at 1. rewrite N.lxor_spec.
    change (N.testbit x (N.of_nat y)) with (bit x y).
    change (N.testbit ?z (N.of_nat y)) with (bit z y). rewrite !bit_setbit.
    assert (bit 0 y = false) as -> by reflexivity.
    destruct (Nat.eqb_spec b y) as [->|], (Nat.eqb_spec a y) as [->|]; try lia; simpl.
    + rewrite Nat.eqb_refl. destruct (Nat.eqb_spec y a); [lia|].
      destruct (bit x a), (bit x y); auto; now destruct E'.
    + rewrite Nat.eqb_refl. destruct (bit x y), (bit x b); auto; now destruct E'.
    + destruct (Nat.eqb_spec y a); [lia|]. destruct (Nat.eqb_spec y b); [lia|].
      destruct (bit x y); auto.
Qed.

Section Sound.
Context {A T : Type} (comp : T -> T -> bool) (proj : A -> T).
Notation lt := (by_proj comp proj).
Variable n : nat.

Definition sat (R : rel) (v : nat -> A) : Prop :=
  forall a b, a < n -> b < n -> le_at R a b = true -> lt (v b) (v a) = false.

Definition vsw (a b : nat) (v : nat -> A) : nat -> A := fun x => v (tr a b x).

Lemma tr_lt : forall a b x, a < n -> b < n -> x < n -> tr a b x < n.
Proof. intros. unfold tr. destruct (x =? a), (x =? b); auto. Qed.

Lemma sat_swp : forall R a b v, a < n -> b < n -> a <> b -> sat R v -> sat (swp n R a b) (vsw a b v).
Proof.
  intros R a b v Ha Hb Hab HS x y Hx Hy H. unfold le_at, swp in H. rewrite row_map in H by auto.
  rewrite bit_swap_bits in H by auto. apply HS; auto using tr_lt.
Qed.

Lemma sat_add : forall R a b v, strict_weak_order lt -> a < n -> b < n ->
  sat R v -> lt (v b) (v a) = false -> sat (add n R a b) v.
Proof.
  intros R a b v HW Ha Hb HS Hab x y Hx Hy H. unfold le_at, add in H. rewrite row_map in H by auto.
  destruct ((x =? a) || le_at R x a) eqn:E; [|apply HS; auto].
  unfold bit in H. rewrite N.lor_spec in H. apply orb_prop in H as [H|H]; [apply HS; auto|].
  change (bit (N.setbit (row R b) (N.of_nat b)) y = true) in H. rewrite bit_setbit in H.
  assert (lt (v b) (v x) = false) as H1.
  { apply orb_prop in E as [E|E]; [apply Nat.eqb_eq in E; subst; auto|].
    apply (le_trans lt HW (v x) (v a) (v b)); [apply HS; auto|auto]. }
  apply orb_prop in H as [H|H]; [apply Nat.eqb_eq in H; subst; auto|].
  apply (le_trans lt HW (v x) (v b) (v y)); [auto|apply HS; auto].
Qed.

Lemma sat_join_l : forall R S v, sat R v -> sat (join n R S) v.
Proof.
  intros R S v H a b Ha Hb E. unfold le_at, join in E. rewrite row_map in E by auto.
  unfold bit in E. rewrite N.land_spec in E. apply andb_prop in E as [E _]. apply H; auto.
Qed.

Lemma sat_join_r : forall R S v, sat S v -> sat (join n R S) v.
Proof.
  intros R S v H a b Ha Hb E. unfold le_at, join in E. rewrite row_map in E by auto.
  unfold bit in E. rewrite N.land_spec in E. apply andb_prop in E as [_ E]. apply H; auto.
Qed.

Lemma merge_flag_sound : forall f l R v, In (f, R) l -> sat R v ->
  exists R', merge_flag n f l = Some R' /\ sat R' v.
Proof.
  induction l as [|[g S] l IH]; intros R v HI HS; [destruct HI|].
  simpl. destruct HI as [E|HI].
  - inversion E; subst. rewrite eqb_reflx. fold (merge_flag n f l).
    destruct (merge_flag n f l); eexists; split; eauto. apply sat_join_l; auto.
  - destruct (IH R v HI HS) as (R' & E & HS'). fold (merge_flag n f l). rewrite E.
    destruct (Bool.eqb f g); [|eauto]. eexists; split; eauto. apply sat_join_r; auto.
Qed.

Lemma merge_states_sound : forall f l R v, In (f, R) l -> sat R v ->
  exists R', In (f, R') (merge_states n l) /\ sat R' v.
Proof.
  intros f l R v HI HS. destruct (merge_flag_sound f l R v HI HS) as (R' & E & H).
  exists R'. split; auto. unfold merge_states. apply in_or_app.
  destruct f; rewrite E; simpl; auto.
Qed.

Lemma all_states_sound : forall k l out f R, In (f, R) l -> all_states n k l = Some out ->
  exists o, abs n k f R = Some o /\ incl o out.
Proof.
  induction l as [|[g S] l IH]; intros out f R HI E; [destruct HI|].
  simpl in E. destruct (abs n k g S) as [x|] eqn:E1; [|discriminate].
  fold (all_states n k l) in E. destruct (all_states n k l) as [y|] eqn:E2; [|discriminate].
  inversion E; subst. destruct HI as [HI|HI].
  - inversion HI; subst. exists x. split; auto. apply incl_appl, incl_refl.
  - destruct (IH y f R HI eq_refl) as (o & Ho & Hi). exists o. split; auto. apply incl_appr; auto.
Qed.

Lemma two_spec : forall a b, two n a b = true -> a < n /\ b < n /\ a <> b.
Proof.
  unfold two. intros a b H. apply andb_prop in H as [H H3]. apply andb_prop in H as [H1 H2].
  apply Nat.ltb_lt in H1, H2. apply negb_true_iff, Nat.eqb_neq in H3. auto.
Qed.

Notation holds := (@holds A).

Lemma holds_swap : forall f v m a b, a < n -> b < n -> a <> b -> f + n <= length m -> holds f n v m ->
  pm f (f + n) m (upd (f + b) (Val (v a)) (upd (f + a) (Val (v b)) m)) /\
  holds f n (vsw a b v) (upd (f + b) (Val (v a)) (upd (f + a) (Val (v b)) m)).
Proof.
  intros f v m a b Ha Hb Hab HL HH. split.
  - apply pm_swap; auto; lia.
  - intros k Hk. unfold vsw, tr. rewrite !nth_upd, !upd_length.
    destruct (Nat.eqb_spec (f + b) (f + k)) as [E|E].
    + assert (k = b) by lia. subst k. destruct (Nat.ltb_spec (f + b) (length m)); [|lia].
      destruct (Nat.eqb_spec b a); [lia|]. rewrite Nat.eqb_refl. auto.
    + destruct (Nat.eqb_spec (f + a) (f + k)) as [E2|E2].
      * assert (k = a) by lia. subst k. destruct (Nat.ltb_spec (f + a) (length m)); [|lia].
        rewrite Nat.eqb_refl. auto.
      * destruct (Nat.eqb_spec k a); [lia|]. destruct (Nat.eqb_spec k b); [lia|]. auto.
Qed.

(** The effect of a cycle on the values. *)
Fixpoint vcyc (v : nat -> A) (h : nat) (l : list nat) : nat -> A :=
  match l with [] => v | j :: l => vcyc (vsw h j v) j l end.

Lemma cycle_moves_wp : forall l f v V h, wf_cycle n h l = true -> holds f n v V -> f + n <= length V ->
  wp (cycle_moves f (v h) h l) (fun _ m' => pm f (f + n) V m' /\ holds f n (vcyc v h l) m')
     (upd (f + h) Moved V).
Proof.
  induction l as [|j l IH]; intros f v V h HW HH HL; simpl in HW; cbn [cycle_moves vcyc].
  - apply Nat.ltb_lt in HW. apply wp_put_hole; [apply HH; auto|]. split; auto using pm_refl.
  - apply andb_prop in HW as [HW HW2]. apply two_spec in HW as (H1 & H2 & H3).
    apply wp_bind. apply wp_move_hole with (t := v h) (y := v j); [lia|apply HH; auto|apply HH; auto|].
    destruct (holds_swap f v V h j) as [P1 H1']; auto.
    assert (upd (f + h) (Val (v j)) (upd (f + j) (Val (v h)) V) =
            upd (f + j) (Val (v h)) (upd (f + h) (Val (v j)) V)) as E by (apply upd_comm; lia).
    rewrite E.
    assert (vsw h j v j = v h) as Ev.
    { unfold vsw, tr. destruct (Nat.eqb_spec j h); [lia|]. now rewrite Nat.eqb_refl. }
    specialize (IH f (vsw h j v) _ j HW2 H1'). rewrite Ev in IH.
    eapply wp_mono; [apply IH; rewrite !upd_length; auto|].
    intros x m' [P2 H2']. split; auto. eapply pm_trans; eauto.
Qed.

Definition vcyc0 (v : nat -> A) (l : list nat) : nat -> A := match l with [] => v | i :: l => vcyc v i l end.

Lemma cycle_wp : forall l f v m, wf_cycle0 n l = true -> holds f n v m -> f + n <= length m ->
  wp (cycle f l) (fun _ m' => pm f (f + n) m m' /\ holds f n (vcyc0 v l) m') m.
Proof.
  intros [|i l] f v m HW HH HL; simpl.
  - apply wp_ret. split; auto using pm_refl.
  - apply wp_bind. assert (i < n) as Hi.
    { destruct l as [|j l]; simpl in HW; [apply Nat.ltb_lt; auto|].
      apply andb_prop in HW as [HW _]. now apply two_spec in HW. }
    eapply wp_take; [apply HH; auto|]. apply cycle_moves_wp; auto.
Qed.

Lemma sat_cyc : forall l R v h, wf_cycle n h l = true -> sat R v -> sat (cyc n R h l) (vcyc v h l).
Proof.
  induction l as [|j l IH]; intros R v h HW HS; simpl; auto. simpl in HW.
  apply andb_prop in HW as [HW HW2]. apply two_spec in HW as (? & ? & ?).
  apply IH; auto. apply sat_swp; auto.
Qed.

Lemma cycle_shift : forall l f off m, cycle (A := A) (f + off) l m = cycle f (map (fun x => off + x) l) m.
Proof.
  assert (forall l f off x h m, cycle_moves (A := A) (f + off) x h l m
    = cycle_moves f x (off + h) (map (fun x => off + x) l) m) as H.
  { induction l as [|j l IH]; intros f off x h m; simpl.
    - now rewrite Nat.add_assoc.
    - rewrite !Nat.add_assoc. unfold bind. destruct (move_to _ _ m); auto. }
  intros [|i l] f off m; simpl; auto. rewrite Nat.add_assoc.
  unfold bind. destruct (take _ m); auto.
Qed.

Lemma map_add_seq : forall k off s, map (fun x => off + x) (seq s k) = seq (off + s) k.
Proof.
  induction k as [|k IH]; intros off s; simpl; auto. rewrite IH. now rewrite Nat.add_succ_r.
Qed.

Definition sorted_vals (v : nat -> A) : Prop := forall i j, i < j -> j < n -> lt (v j) (v i) = false.

Lemma ok_sound : forall R v, strict_weak_order lt -> sat R v -> ok n R = true -> sorted_vals v.
Proof.
  intros R v HW HS HO i j Hij Hj. unfold ok in HO. rewrite forallb_forall in HO.
  induction Hij as [|j Hij IH].
  - apply HS; try lia. apply HO. apply in_seq. lia.
  - apply (le_trans lt HW (v i) (v j) (v (S j))); [apply IH; lia|].
    apply HS; try lia. apply HO. apply in_seq. lia.
Qed.

Lemma sat_cyc0 : forall l R v, wf_cycle0 n l = true -> sat R v -> sat (cyc0 n R l) (vcyc0 v l).
Proof. intros [|i l] R v HW HS; simpl; auto. apply sat_cyc; auto. Qed.

Lemma exec_wp : forall c fl f v m, wf n c = true -> holds f n v m -> f + n <= length m ->
  wp (exec comp proj f c fl) (fun r m' => pm f (f + n) m m' /\ exists v', holds f n v' m' /\
      forall R out, strict_weak_order lt -> sat R v -> abs n c fl R = Some out ->
        match r with
        | None => sorted_vals v'
        | Some fl' => exists R', In (fl', R') out /\ sat R' v'
        end) m.
Proof.
  assert (forall (k : code) fl f v m m1 v1 (Rn : rel -> rel),
    (forall fl f v m, wf n k = true -> holds f n v m -> f + n <= length m ->
     wp (exec comp proj f k fl) (fun r m' => pm f (f + n) m m' /\ exists v', holds f n v' m' /\
      forall R out, strict_weak_order lt -> sat R v -> abs n k fl R = Some out ->
        match r with
        | None => sorted_vals v'
        | Some fl' => exists R', In (fl', R') out /\ sat R' v'
        end) m) ->
    wf n k = true -> f + n <= length m -> pm f (f + n) m m1 -> holds f n v1 m1 ->
    (strict_weak_order lt -> forall R, sat R v -> sat (Rn R) v1) ->
    wp (exec comp proj f k fl) (fun r m' => pm f (f + n) m m' /\ exists v', holds f n v' m' /\
      forall R out, strict_weak_order lt -> sat R v -> abs n k fl (Rn R) = Some out ->
        match r with
        | None => sorted_vals v'
        | Some fl' => exists R', In (fl', R') out /\ sat R' v'
        end) m1) as seq_step.
  { intros k fl f v m m1 v1 Rn IH HW HL HP HH HR.
    eapply wp_mono; [apply (IH fl f v1 m1); auto; rewrite (pm_length _ _ _ _ HP); auto|].
    intros r m' (P' & v' & H' & HF). split; [eapply pm_trans; eauto|].
    exists v'. split; auto. intros R out HWO HS HA. apply (HF (Rn R)); auto. }
  induction c as [| |a b k IH|a b k IH|l k IH|q off k IH|q off k IH|a b t IHt e IHe k IHk|b k IH|t IHt k IHk];
    intros fl f v m HW HH HL; cbn [exec wf abs] in *.
  - apply wp_ret. split; [apply pm_refl|]. exists v. split; auto.
    intros R out _ HS E. inversion E; subst. exists R. simpl; auto.
  - apply wp_ret. split; [apply pm_refl|]. exists v. split; auto.
    intros R out HWO HS E. destruct (ok n R) eqn:EO; [|discriminate]. eapply ok_sound; eauto.
  - apply andb_prop in HW as [HW HWk]. apply two_spec in HW as (H1 & H2 & H3). apply wp_bind.
    eapply wp_iter_swap_if; [apply HH; auto|apply HH; auto|].
    destruct (lt (v b) (v a)) eqn:C.
    + destruct (holds_swap f v m a b) as [P1 HH1]; auto.
      apply (seq_step k fl f v m _ (vsw a b v) (fun R => join n (swp n (add n R b a) a b) (add n R a b))); auto.
      intros HWO R HS. apply sat_join_l, sat_swp; auto. apply sat_add; auto. apply lt_asym; auto.
    + apply (seq_step k fl f v m _ v (fun R => join n (swp n (add n R b a) a b) (add n R a b))); auto using pm_refl.
      intros HWO R HS. apply sat_join_r. apply sat_add; auto.
  - apply andb_prop in HW as [HW HWk]. apply two_spec in HW as (H1 & H2 & H3). apply wp_bind.
    eapply wp_swap; [apply HH; auto|apply HH; auto|].
    destruct (holds_swap f v m a b) as [P1 HH1]; auto.
    apply (seq_step k fl f v m _ (vsw a b v) (fun R => swp n R a b)); auto.
    intros HWO R HS. apply sat_swp; auto.
  - apply andb_prop in HW as [HW HWk]. apply wp_bind.
    eapply wp_mono; [apply (cycle_wp l f v m); auto|]. intros ? m1 [P1 HH1].
    apply (seq_step k fl f v m _ (vcyc0 v l) (fun R => cyc0 n R l)); auto.
    intros HWO R HS. apply sat_cyc0; auto.
  - apply andb_prop in HW as [HW HWk]. apply wp_bind. unfold rotate_left_n, wp. rewrite cycle_shift, map_add_seq, Nat.add_0_r.
    eapply wp_mono; [apply (cycle_wp (seq off q) f v m); auto|]. intros ? m1 [P1 HH1].
    apply (seq_step k fl f v m _ (vcyc0 v (seq off q)) (fun R => cyc0 n R (seq off q))); auto.
    intros HWO R HS. apply sat_cyc0; auto.
  - apply andb_prop in HW as [HW HWk]. apply wp_bind. unfold rotate_right_n, wp.
    rewrite cycle_shift, map_rev, map_add_seq, Nat.add_0_r.
    eapply wp_mono; [apply (cycle_wp (rev (seq off q)) f v m); auto|]. intros ? m1 [P1 HH1].
    apply (seq_step k fl f v m _ (vcyc0 v (rev (seq off q))) (fun R => cyc0 n R (rev (seq off q)))); auto.
    intros HWO R HS. apply sat_cyc0; auto.
  - apply andb_prop in HW as [HW HWk]. apply andb_prop in HW as [HW HWe]. apply andb_prop in HW as [HW HWt].
    apply two_spec in HW as (H1 & H2 & H3). apply wp_bind.
    eapply wp_less_at; [apply HH; auto|apply HH; auto|]. apply wp_bind.
    eapply wp_mono.
    { instantiate (1 := fun r m' => pm f (f + n) m m' /\ exists v', holds f n v' m' /\
        forall R l1 l2, strict_weak_order lt -> sat R v -> abs n t fl (add n R a b) = Some l1 ->
          abs n e fl (add n R b a) = Some l2 ->
          match r with
          | None => sorted_vals v'
          | Some fl' => exists R', In (fl', R') (l1 ++ l2) /\ sat R' v'
          end).
      destruct (lt (v a) (v b)) eqn:C.
      - eapply wp_mono; [apply (IHt fl f v m); auto|]. intros r m' (P' & v' & H' & HF). split; auto.
        exists v'. split; auto. intros R l1 l2 HWO HS E1 E2.
        specialize (HF _ l1 HWO (sat_add R a b v HWO H1 H2 HS (lt_asym lt HWO _ _ C)) E1).
        destruct r as [fl'|]; auto. destruct HF as (R' & HI & HS'). exists R'. split; auto.
        apply in_or_app; auto.
      - eapply wp_mono; [apply (IHe fl f v m); auto|]. intros r m' (P' & v' & H' & HF). split; auto.
        exists v'. split; auto. intros R l1 l2 HWO HS E1 E2.
        specialize (HF _ l2 HWO (sat_add R b a v HWO H2 H1 HS C) E2).
        destruct r as [fl'|]; auto. destruct HF as (R' & HI & HS'). exists R'. split; auto.
        apply in_or_app; auto. }
    intros [fl'|] m1 (P1 & v1 & HH1 & HF).
    + eapply wp_mono; [apply (IHk fl' f v1 m1); auto; rewrite (pm_length _ _ _ _ P1); auto|].
      intros r m' (P' & v' & H' & HF'). split; [eapply pm_trans; eauto|]. exists v'. split; auto.
      intros R out HWO HS E. destruct (abs n t fl (add n R a b)) as [l1|] eqn:E1; [|discriminate].
      destruct (abs n e fl (add n R b a)) as [l2|] eqn:E2; [|discriminate].
      destruct (HF R l1 l2) as (R1 & HI & HS1); auto.
      destruct (merge_states_sound fl' (l1 ++ l2) R1 v1 HI HS1) as (R2 & HI2 & HS2).
      destruct (all_states_sound k _ out fl' R2 HI2 E) as (o & Eo & Hinc).
      specialize (HF' R2 o HWO HS2 Eo). destruct r as [fl2|]; auto.
      destruct HF' as (R' & HI' & HS'). exists R'. split; auto.
    + apply wp_ret. split; auto. exists v1. split; auto.
      intros R out HWO HS E. destruct (abs n t fl (add n R a b)) as [l1|] eqn:E1; [|discriminate].
      destruct (abs n e fl (add n R b a)) as [l2|] eqn:E2; [|discriminate].
      apply (HF R l1 l2); auto.
  - apply IH; auto.
  - apply andb_prop in HW as [HWt HWk]. apply wp_bind.
    eapply wp_mono.
    { instantiate (1 := fun r m' => pm f (f + n) m m' /\ exists v', holds f n v' m' /\
        forall R l, strict_weak_order lt -> sat R v ->
          (if fl then abs n t fl R else Some [(fl, R)]) = Some l ->
          match r with
          | None => sorted_vals v'
          | Some fl' => exists R', In (fl', R') l /\ sat R' v'
          end).
      destruct fl.
      - apply (IHt true f v m); auto.
      - apply wp_ret. split; auto using pm_refl. exists v. split; auto.
        intros R l _ HS E. inversion E; subst. exists R. simpl; auto. }
    intros [fl'|] m1 (P1 & v1 & HH1 & HF).
    + eapply wp_mono; [apply (IHk fl' f v1 m1); auto; rewrite (pm_length _ _ _ _ P1); auto|].
      intros r m' (P' & v' & H' & HF'). split; [eapply pm_trans; eauto|]. exists v'. split; auto.
      intros R out HWO HS E.
      destruct (if fl then abs n t fl R else Some [(fl, R)]) as [l|] eqn:E1; [|discriminate].
      destruct (HF R l) as (R1 & HI & HS1); auto.
      destruct (all_states_sound k _ out fl' R1 HI E) as (o & Eo & Hinc).
      specialize (HF' R1 o HWO HS1 Eo). destruct r as [fl2|]; auto.
      destruct HF' as (R' & HI' & HS'). exists R'. split; auto.
    + apply wp_ret. split; auto. exists v1. split; auto. intros R out HWO HS E.
      destruct (if fl then abs n t fl R else Some [(fl, R)]) as [l|] eqn:E1; [|discriminate].
      apply (HF R l); auto.
Qed.

Lemma sat_chain : forall f v m lo hi, hi <= n -> holds f n v m -> sorted_range lt (f + lo) (f + hi) m ->
  strict_weak_order lt -> sat (chain n lo hi) v.
Proof.
  intros f v m lo hi Hhi HH HS HW a b Ha Hb E. unfold le_at, chain in E. rewrite row_map in E by auto.
  destruct (Nat.leb_spec lo a); [|unfold bit in E; now rewrite N.bits_0 in E].
  destruct (Nat.ltb_spec a hi); [|unfold bit in E; now rewrite N.bits_0 in E]. simpl in E.
  unfold bit in E.
  destruct (Nat.lt_trichotomy a b) as [Hab|[->|Hab]].
  - rewrite N.shiftl_spec_high' in E by lia.
    destruct (Nat.lt_ge_cases b hi) as [Hbh|Hbh].
    + apply (HS (f + a) (f + b)); try lia; apply HH; auto.
    + rewrite N.ones_spec_high in E by lia. discriminate.
  - apply lt_irrefl; auto.
  - rewrite N.shiftl_spec_low in E by lia. discriminate.
Qed.

Theorem run_code_wp : forall c f m lo hi, 0 < n -> hi <= n -> check_code n lo hi c = true -> full f (f + n) m ->
  wp (run_code comp proj c f) (fun _ m' => pm f (f + n) m m' /\
    (strict_weak_order lt -> sorted_range lt (f + lo) (f + hi) m -> sorted_range lt f (f + n) m')) m.
Proof.
  intros c f m lo hi Hn Hhi HC HF. unfold check_code in HC. apply andb_prop in HC as [HW HA].
  destruct (full_holds f n m HF Hn) as (v & Hv). unfold run_code. apply wp_bind.
  eapply wp_mono; [apply (exec_wp c false f v m HW Hv); apply HF|].
  intros r m' (P & v' & H' & HS). apply wp_ret. split; auto.
  intros HWO HSR.
  destruct (abs n c false (chain n lo hi)) as [out|] eqn:E; [|discriminate].
  specialize (HS _ out HWO (sat_chain f v m lo hi Hhi Hv HSR HWO) E).
  assert (sorted_vals v') as HV.
  { destruct r as [fl|]; auto. destruct HS as (R' & HI & HS'). rewrite forallb_forall in HA.
    apply (ok_sound R' v'); auto. apply (HA _ HI). }
  intros i j x y H1 H2 H3 Hx Hy.
  replace i with (f + (i - f)) in Hx by lia. replace j with (f + (j - f)) in Hy by lia.
  rewrite H' in Hx, Hy by lia. inversion Hx; inversion Hy; subst. apply HV; lia.
Qed.
End Sound.
