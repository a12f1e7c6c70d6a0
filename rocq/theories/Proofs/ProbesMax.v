(** Collections on which the measures of presortedness reach their greatest values. *)
From Coq Require Import List Arith Lia Permutation Bool ZArith Zify ZifyNat Sorted.
From Verif Require Import Spec.Order Spec.Probes Lang.Mem Spec.Sorts Proofs.Wp Proofs.Examples Proofs.OrderLib Proofs.Search Model.Probes Proofs.ProbesA Proofs.ProbesC
  Proofs.ProbesE Proofs.ProbesF Proofs.ProbesG Proofs.ProbesH.
Import ListNotations.
Ltac Zify.zify_post_hook ::= Z.to_euclidean_division_equations.

Local Notation L := Nat.ltb.

Lemma nth_map_seq : forall (f : nat -> nat) n i, i < n -> nth_error (map f (seq 0 n)) i = Some (f i).
Proof.
  intros f n i H. apply map_nth_error. rewrite (nth_error_nth' _ 0) by (rewrite seq_length; lia). now rewrite seq_nth.
Qed.
Lemma nth_map_seq_inv : forall (f : nat -> nat) n i x, nth_error (map f (seq 0 n)) i = Some x -> i < n /\ x = f i.
Proof.
  intros f n i x H. assert (i < n) as Hi.
  { apply nth_lt in H. now rewrite map_length, seq_length in H. }
  split; auto. rewrite nth_map_seq in H by auto. congruence.
Qed.
Lemma nth_seq_inv : forall n i x, nth_error (seq 0 n) i = Some x -> i < n /\ x = i.
Proof. intros n i x H. rewrite <- (map_id (seq 0 n)) in H. now apply (nth_map_seq_inv (fun x => x)) in H. Qed.
Lemma wit_length : forall (f : nat -> nat) n, length (map f (seq 0 n)) = n.
Proof. intros. now rewrite map_length, seq_length. Qed.

Lemma NoDup_map_on : forall (f : nat -> nat) l, (forall x y, In x l -> In y l -> f x = f y -> x = y) -> NoDup l -> NoDup (map f l).
Proof.
  intros f l H HN. induction HN as [|a l Ha HN IH]; simpl; constructor.
  - intros Hin. apply in_map_iff in Hin as (b & E & Hb). apply H in E; [subst; auto|now right|now left].
  - apply IH. intros x y Hx Hy. apply H; now right.
Qed.

Lemma filter_all : forall X (P : X -> bool) l, forallb P l = true -> filter P l = l.
Proof. induction l as [|a l IH]; simpl; auto. intros H. apply andb_true_iff in H as [-> H]. now rewrite IH. Qed.

(** A map of the positions which is one-to-one and stays within bounds. *)
Lemma wit_perm : forall (f : nat -> nat) n, (forall i, i < n -> f i < n) -> (forall i j, i < n -> j < n -> f i = f j -> i = j) ->
  Permutation (map f (seq 0 n)) (seq 0 n).
Proof.
  intros f n H1 H2. apply NoDup_Permutation_bis.
  - apply NoDup_map_on; [|apply seq_NoDup]. intros i j Hi Hj. apply in_seq in Hi, Hj. apply H2; lia.
  - rewrite wit_length, seq_length. lia.
  - intros x Hx. apply in_map_iff in Hx as (i & <- & Hi). apply in_seq in Hi. apply in_seq. specialize (H1 i). lia.
Qed.
Lemma seq_sorted : forall n, sorted L (seq 0 n).
Proof. intros n i j x y Hij Hx Hy. apply nth_seq_inv in Hx as [_ ->], Hy as [_ ->]. apply Nat.ltb_ge. lia. Qed.
Lemma equivalent_nat : forall x y, equivalent L x y = true -> x = y.
Proof. intros x y. unfold equivalent. destruct (Nat.ltb_spec x y), (Nat.ltb_spec y x); simpl; try discriminate. lia. Qed.
Lemma equivalent_nat_neq : forall x y, x <> y -> equivalent L x y = false.
Proof. intros x y H. destruct (equivalent L x y) eqn:E; auto. now apply equivalent_nat in E. Qed.
Lemma wit_distinct : forall (f : nat -> nat) n, (forall i j, i < n -> j < n -> f i = f j -> i = j) -> distinct L (map f (seq 0 n)).
Proof.
  intros f n H i j x y Hij Hx Hy. apply nth_map_seq_inv in Hx as [Hi ->], Hy as [Hj ->]. apply equivalent_nat_neq. intros E.
  apply H in E; lia.
Qed.

(** * A strictly decreasing collection *)
Definition desc (n : nat) : list nat := map (fun i => n - 1 - i) (seq 0 n).

Lemma desc_length : forall n, length (desc n) = n.
Proof. intros. apply wit_length. Qed.
Lemma desc_less : forall n i j, i < n -> j < n -> less_pos L (desc n) j i = (i <? j).
Proof.
  intros n i j Hi Hj. unfold less_pos, desc. rewrite !nth_map_seq by auto.
  destruct (Nat.ltb_spec i j); [apply Nat.ltb_lt|apply Nat.ltb_ge]; lia.
Qed.
Lemma desc_perm : forall n, Permutation (desc n) (seq 0 n).
Proof. intros n. apply wit_perm; intros; lia. Qed.
Lemma desc_distinct : forall n, distinct L (desc n).
Proof. intros n. apply wit_distinct. intros; lia. Qed.

Lemma cnt_above : forall n i, i < n -> cnt (fun j => i <? j) (seq 0 n) = n - 1 - i.
Proof.
  intros n i H. replace (seq 0 n) with (seq 0 (S i) ++ seq (S i) (n - 1 - i)).
  2:{ rewrite <- seq_app. f_equal. lia. }
  rewrite cnt_app. replace (cnt _ (seq 0 (S i))) with 0.
  - unfold cnt. rewrite filter_all; [now rewrite seq_length|]. apply forallb_forall. intros x Hx. apply in_seq in Hx. apply Nat.ltb_lt. lia.
  - symmetry. unfold cnt. assert (forall l, (forall x, In x l -> x <= i) -> filter (fun j => i <? j) l = []) as K.
    { induction l as [|a l IH]; intros Hl; auto. simpl. pose proof (Hl a (or_introl eq_refl)). destruct (Nat.ltb_spec i a); [lia|].
      apply IH. intros; apply Hl; now right. }
    rewrite K; auto. intros x Hx. apply in_seq in Hx. lia.
Qed.
Lemma sum_down : forall n, 2 * list_sum (map (fun i => n - 1 - i) (seq 0 n)) = n * (n - 1).
Proof.
  induction n as [|n IH]; auto. cbn [seq map]. rewrite <- seq_shift, map_map, list_sum_cons.
  rewrite (list_sum_ext _ (fun x => S n - 1 - S x) (fun i => n - 1 - i)) by (intros; lia).
  set (s := list_sum (map (fun i => n - 1 - i) (seq 0 n))) in *. clearbody s. replace (S n - 1) with n by lia. nia.
Qed.
Lemma desc_inversions : forall n, 2 * length (inversion_pairs L (desc n)) = n * (n - 1).
Proof.
  intros n. unfold inversion_pairs. rewrite desc_length, (cnt_prod _ _ (fun i j => (i <? j) && less_pos L (desc n) j i)).
  rewrite <- sum_down. f_equal. apply list_sum_ext. intros i Hi. apply in_seq in Hi. rewrite <- (cnt_above n i) by lia.
  apply cnt_ext. intros j Hj. apply in_seq in Hj. rewrite desc_less by lia. apply andb_diag.
Qed.

Lemma desc_strongly : forall n, StronglySorted (fun a b => b < a) (desc n).
Proof.
  intros n. unfold desc. assert (forall k s, s + k <= n -> StronglySorted (fun a b => b < a) (map (fun i => n - 1 - i) (seq s k))) as K.
  { induction k as [|k IH]; intros s Hs; simpl; constructor.
    - apply IH. lia.
    - apply Forall_forall. intros x Hx. apply in_map_iff in Hx as (i & <- & Hi). apply in_seq in Hi. lia. }
  apply K. lia.
Qed.
Lemma subseq_forall : forall (P : nat -> Prop) ys xs, subseq ys xs -> Forall P xs -> Forall P ys.
Proof. induction 1; intros HF; auto; inversion HF; subst; auto. Qed.
Lemma subseq_strongly : forall R (ys xs : list nat), subseq ys xs -> StronglySorted R xs -> StronglySorted R ys.
Proof.
  induction 1 as [|x ys xs H IH|x ys xs H IH]; intros HS; auto; inversion HS; subst; auto. constructor; auto.
  eapply subseq_forall; eauto.
Qed.
Lemma desc_lnds : forall n k, lnds_length L (desc n) k -> k <= 1.
Proof.
  intros n k [(ys & H1 & H2 & <-) _]. pose proof (subseq_strongly _ _ _ H1 (desc_strongly n)) as HS.
  destruct ys as [|a [|b ys]]; simpl; try lia. exfalso. inversion HS; subst. inversion H4; subst.
  specialize (H2 0 1 a b ltac:(lia) eq_refl eq_refl). apply Nat.ltb_ge in H2. lia.
Qed.
Lemma desc_splits : forall n k, splits_into L (desc n) k -> n <= k.
Proof.
  intros n k (color & H1 & H2). rewrite desc_length in *.
  assert (NoDup (map color (seq 0 n))) as HN.
  { apply NoDup_map_on; [|apply seq_NoDup]. intros i j Hi Hj E. apply in_seq in Hi, Hj.
    destruct (lt_eq_lt_dec i j) as [[Hlt|]|Hlt]; auto; exfalso.
    - specialize (H2 i j ltac:(lia) E). rewrite desc_less in H2 by lia. apply Nat.ltb_ge in H2. lia.
    - specialize (H2 j i ltac:(lia) (eq_sym E)). rewrite desc_less in H2 by lia. apply Nat.ltb_ge in H2. lia. }
  apply (NoDup_incl_length (l' := seq 0 k)) in HN.
  - now rewrite map_length, !seq_length in HN.
  - intros c Hc. apply in_map_iff in Hc as (i & <- & Hi). apply in_seq in Hi. apply in_seq. specialize (H1 i). lia.
Qed.
Lemma desc_steps : forall n, length (step_downs L (desc n)) = n - 1.
Proof.
  intros n. unfold step_downs. rewrite desc_length, filter_all; [apply seq_length|]. apply forallb_forall. intros i Hi.
  apply in_seq in Hi. rewrite desc_less by lia. apply Nat.ltb_lt. lia.
Qed.
Lemma fold_max_in : forall l x, In x l -> x <= fold_right Nat.max 0 l.
Proof. induction l as [|a l IH]; intros x H; [destruct H|]. destruct H as [->|H]; simpl; [lia|]. specialize (IH x H). lia. Qed.
Lemma desc_distance : forall n, n - 1 <= max_inversion_distance L (desc n).
Proof.
  intros n. destruct (Nat.le_gt_cases n 1) as [Hn|Hn]; [lia|]. unfold max_inversion_distance. apply fold_max_in.
  apply in_map_iff. exists (0, n - 1). split; [lia|]. unfold inversion_pairs. apply filter_In. rewrite desc_length. split.
  - apply in_prod; apply in_seq; lia.
  - rewrite desc_less by lia. rewrite andb_diag. apply Nat.ltb_lt. lia.
Qed.
Lemma desc_displacement : forall n d, max_displacement L (desc n) (seq 0 n) d -> n - 1 <= d.
Proof.
  intros n d [H _]. destruct (Nat.eq_dec n 0) as [->|Hn]; [lia|].
  destruct (H (n - 1) 0) as (j & y & Hj & Hy & Hd).
  { unfold desc. rewrite nth_map_seq by lia. f_equal. lia. }
  apply nth_seq_inv in Hj as [_ ->]. apply equivalent_nat in Hy as <-. unfold distance in Hd. lia.
Qed.
Lemma desc_broken : forall n k, broken_adjacencies L (desc n) (seq 0 n) k -> n - 1 <= k.
Proof.
  intros n k (l & HN & <- & Hl). assert (incl (seq 0 (n - 1)) l) as HI.
  { intros v Hv. apply in_seq in Hv. apply Hl. exists v, (S v).
    rewrite !(nth_error_nth' (seq 0 n) 0) by (rewrite seq_length; lia). rewrite !seq_nth by lia. split; [auto|split; auto].
    intros (i & x & y & Hx & Hy & E1 & E2). apply equivalent_nat in E1, E2. subst x y.
    apply nth_map_seq_inv in Hx as [Hi E1], Hy as [Hi' E2]. lia. }
  pose proof (NoDup_incl_length (seq_NoDup (n - 1) 0) HI) as HL. now rewrite seq_length in HL.
Qed.

(** * A rotation by one *)
Definition rot (n : nat) : list nat := map (fun i => if S i =? n then 0 else S i) (seq 0 n).

Lemma rot_length : forall n, length (rot n) = n.
Proof. intros. apply wit_length. Qed.
Lemma rot_perm : forall n, Permutation (rot n) (seq 0 n).
Proof.
  intros n. apply wit_perm.
  - intros i Hi. destruct (Nat.eqb_spec (S i) n); lia.
  - intros i j Hi Hj. destruct (Nat.eqb_spec (S i) n), (Nat.eqb_spec (S j) n); lia.
Qed.
Lemma rot_distinct : forall n, distinct L (rot n).
Proof. intros n. apply wit_distinct. intros i j Hi Hj. destruct (Nat.eqb_spec (S i) n), (Nat.eqb_spec (S j) n); lia. Qed.
Lemma combine_map : forall (f : nat -> nat) l, combine (map f l) l = map (fun i => (f i, i)) l.
Proof. induction l; simpl; congruence. Qed.
Lemma rot_hamming : forall n, n <> 1 -> hamming L (rot n) (seq 0 n) = n.
Proof.
  intros n Hn. unfold hamming, rot. rewrite combine_map, filter_all; [now rewrite map_length, seq_length|].
  apply forallb_forall. intros x Hx. apply in_map_iff in Hx as (i & <- & Hi). apply in_seq in Hi.
  rewrite equivalent_nat_neq; auto. destruct (Nat.eqb_spec (S i) n); lia.
Qed.
Lemma seq_strongly : forall k s, StronglySorted Nat.le (seq s k).
Proof. induction k as [|k IHk]; intros s; simpl; constructor; auto. apply Forall_forall. intros x Hx. apply in_seq in Hx. lia. Qed.
Lemma sorted_strongly : forall ys, sorted L ys -> StronglySorted Nat.le ys.
Proof.
  intros ys HS. induction ys as [|y ys IH]; constructor.
  - apply IH. intros i j a b Hij Ha Hb. apply (HS (S i) (S j) a b); simpl; auto. lia.
  - apply Forall_forall. intros z Hz. apply In_nth_error in Hz as (j & Hj). apply Nat.ltb_ge. apply (HS 0 (S j) y z); simpl; auto. lia.
Qed.
Lemma strongly_unique : forall l ys, StronglySorted Nat.le l -> StronglySorted Nat.le ys -> Permutation l ys -> ys = l.
Proof.
  induction l as [|a l IH]; intros ys H1 H2 HP.
  - now apply Permutation_nil.
  - destruct ys as [|y ys]; [apply Permutation_sym, Permutation_nil in HP; discriminate|].
    inversion H1 as [|? ? H3 H4]; inversion H2 as [|? ? H5 H6]; subst.
    assert (a = y) as ->.
    { rewrite Forall_forall in H4, H6. apply Nat.le_antisymm.
      - assert (In y (a :: l)) as [->|Hy] by (eapply Permutation_in; [apply Permutation_sym; exact HP|left; auto]); [auto|exact (H4 _ Hy)].
      - assert (In a (y :: ys)) as [->|Ha] by (eapply Permutation_in; [exact HP|left; auto]); [auto|exact (H6 _ Ha)]. }
    f_equal. apply IH; auto. eapply Permutation_cons_inv; eauto.
Qed.
Lemma rot_exchanges : forall n k, min_exchanges L (rot n) k -> n - 1 <= k.
Proof.
  intros n k [(ys & HE & HS) _].
  assert (ys = seq 0 n) as ->.
  { apply strongly_unique; [apply seq_strongly|now apply sorted_strongly|].
    transitivity (rot n); [apply Permutation_sym, rot_perm|]. now apply (exchanges_perm k). }
  destruct (exchanges_labels _ _ _ HE) as (tau & lab & D & H1 & H2 & H3 & H4). rewrite rot_length in *.
  assert (forall p, p < n -> lab p = lab 0) as K.
  { induction p as [|p IH]; intros Hp; auto. destruct (H1 (S p) Hp) as (G1 & G2 & G3). rewrite <- G3.
    assert (tau (S p) = p) as ->; [|apply IH; lia].
    rewrite (nth_error_nth' (seq 0 n) 0), seq_nth in G2 by (rewrite ?seq_length; lia). symmetry in G2.
    apply nth_map_seq_inv in G2 as [_ G2]. destruct (Nat.eqb_spec (S (tau (S p))) n); lia. }
  assert (length D <= 1); [|lia]. apply (NoDup_incl_length (l' := [lab 0])) in H2; auto.
  intros d Hd. destruct (H3 d Hd) as (p & Hp & <-). rewrite K by auto. now left.
Qed.

(** * A zigzag *)
Definition zigzag (n : nat) : list nat := map (fun i => i mod 2) (seq 0 n).
Definition alternates (xs : list nat) : Prop := forall i x y z,
  nth_error xs i = Some x -> nth_error xs (S i) = Some y -> nth_error xs (S (S i)) = Some z -> (x < y /\ z < y) \/ (y < x /\ y < z).
Lemma zigzag_alternates : forall n, alternates (zigzag n).
Proof.
  intros n i x y z Hx Hy Hz. apply nth_map_seq_inv in Hx as [_ ->], Hy as [_ ->], Hz as [_ ->]. lia.
Qed.
Lemma zigzag_greedy : forall xs k, greedy_runs L xs k -> alternates xs -> length xs <= 2 * k.
Proof.
  induction 1 as [|run rest k H1 H2 H3 H4 IH]; intros HA; [simpl; lia|].
  rewrite app_length. assert (length rest <= 2 * k).
  { apply IH. intros i x y z Hx Hy Hz. apply (HA (length run + i) x y z);
    (rewrite nth_error_app2 by lia; match goal with |- nth_error _ ?a = _ => match type of Hx with nth_error _ ?b = _ => idtac end end).
    - now replace (length run + i - length run) with i by lia.
    - now replace (S (length run + i) - length run) with (S i) by lia.
    - now replace (S (S (length run + i)) - length run) with (S (S i)) by lia. }
  assert (length run <= 2); [|lia]. destruct run as [|a [|b [|c run]]]; simpl; try lia. exfalso.
  destruct (HA 0 a b c eq_refl eq_refl eq_refl) as [[G1 G2]|[G1 G2]]; destruct H2 as [HS|HS];
    pose proof (HS 0 1 a b ltac:(lia) eq_refl eq_refl) as E1; pose proof (HS 1 2 b c ltac:(lia) eq_refl eq_refl) as E2;
    cbv beta in E1, E2; apply Nat.ltb_ge in E1, E2; lia.
Qed.

(** * Converging ends *)
Definition conv (n : nat) : list nat := map (fun i => if Nat.even i then i / 2 else n - 1 - i / 2) (seq 0 n).
Lemma encroach_skip : forall ls r x, (forall l, In l ls -> misfit L x l) -> encroach L (ls ++ r) x = ls ++ encroach L r x.
Proof.
  induction ls as [|[h t] ls IH]; intros r x H; auto. simpl. destruct (H _ (or_introl eq_refl)) as [G1 G2]. simpl in *.
  rewrite G1, G2. simpl. f_equal. apply IH. auto.
Qed.
Lemma conv_lists : forall n i, 2 * i <= n ->
  exists ls, fold_left (encroach L) (map (fun i => if Nat.even i then i / 2 else n - 1 - i / 2) (seq 0 (2 * i))) [] = ls /\
    length ls = i /\ forall l, In l ls -> fst l < i /\ n - 1 - i < snd l.
Proof.
  induction i as [|i IH]; intros Hi.
  - exists []. split; [auto|split; [auto|]]. intros l [].
  - destruct IH as (ls & E & HL & Hls); [lia|].
    replace (2 * S i) with (2 * i + 1 + 1) by lia. rewrite !seq_app, !map_app, !fold_left_app, E. simpl seq. cbn [map fold_left].
    replace (Nat.even (i + (i + 0))) with true by (symmetry; apply Nat.even_spec; exists i; lia).
    replace (Nat.even (i + (i + 0) + 1)) with false.
    2:{ symmetry. rewrite <- Nat.negb_odd. replace (Nat.odd (i + (i + 0) + 1)) with true; auto. symmetry. apply Nat.odd_spec. exists i. lia. }
    replace ((i + (i + 0)) / 2) with i by lia. replace ((i + (i + 0) + 1) / 2) with i by lia.
    rewrite (encroach_new L ls i).
    2:{ intros l Hl. destruct (Hls l Hl). split; apply Nat.ltb_lt; lia. }
    rewrite encroach_skip.
    2:{ intros l Hl. destruct (Hls l Hl). split; apply Nat.ltb_lt; lia. }
    cbn [encroach]. replace (n - 1 - i <? i) with false by (symmetry; apply Nat.ltb_ge; lia). cbn [negb].
    eexists. split; [reflexivity|]. split; [rewrite app_length; simpl; lia|].
    intros l Hl. apply in_app_or in Hl as [Hl|[<-|[]]]; [destruct (Hls l Hl); lia|simpl; lia].
Qed.
Lemma conv_encroaching : forall n, length (encroaching_lists L (conv n)) = (n + 1) / 2.
Proof.
  intros n. unfold encroaching_lists, conv. destruct (conv_lists n (n / 2) ltac:(lia)) as (ls & E & HL & Hls).
  assert (n = 2 * (n / 2) \/ n = 2 * (n / 2) + 1) as [Hn|Hn] by lia.
  - replace (seq 0 n) with (seq 0 (2 * (n / 2))) by (f_equal; lia). rewrite E. lia.
  - replace (seq 0 n) with (seq 0 (2 * (n / 2) + 1)) by (f_equal; lia). rewrite seq_app, map_app, fold_left_app, E. cbn [seq map fold_left].
    replace (Nat.even (0 + 2 * (n / 2))) with true by (symmetry; apply Nat.even_spec; exists (n / 2); lia).
    rewrite encroach_new; [rewrite app_length; simpl length; lia|].
    intros l Hl. destruct (Hls l Hl). split; apply Nat.ltb_lt; lia.
Qed.

(** * Oscillation *)
Definition wave_at (n i : nat) : nat :=
  if i =? 0 then n / 2 - 1
  else if S i =? n then n / 2
  else if Nat.odd i then n / 2 + 1 + i / 2 else i / 2 - 1.
Definition wave (n : nat) : list nat := map (wave_at n) (seq 0 n).
Lemma even_cases : forall i, exists j, (i = 2 * j /\ Nat.odd i = false) \/ (i = 2 * j + 1 /\ Nat.odd i = true).
Proof.
  intros i. exists (i / 2). destruct (Nat.odd i) eqn:E.
  - right. split; auto. apply Nat.odd_spec in E as (j & E). lia.
  - left. split; auto. rewrite <- Nat.negb_even in E. apply negb_false_iff, Nat.even_spec in E as (j & E). lia.
Qed.
Lemma wave_perm : forall n, 2 <= n -> Permutation (wave n) (seq 0 n).
Proof.
  intros n Hn. apply wit_perm.
  - intros i Hi. unfold wave_at. destruct (Nat.eqb_spec i 0); [lia|]. destruct (Nat.eqb_spec (S i) n); [lia|].
    destruct (even_cases i) as (j & [[E ->]|[E ->]]); lia.
  - intros i j Hi Hj. unfold wave_at. destruct (even_cases i) as (p & [[E ->]|[E ->]]), (even_cases j) as (q & [[E' ->]|[E' ->]]);
    destruct (Nat.eqb_spec i 0), (Nat.eqb_spec j 0), (Nat.eqb_spec (S i) n), (Nat.eqb_spec (S j) n); lia.
Qed.
Lemma below_seq : forall n y, y <= n -> below L y (seq 0 n) = y.
Proof.
  intros n y H. unfold below. replace n with (y + (n - y)) by lia. rewrite seq_app, filter_app, app_length.
  rewrite filter_all, seq_length.
  2:{ apply forallb_forall. intros x Hx. apply in_seq in Hx. apply Nat.ltb_lt. lia. }
  assert (forall l, (forall x, In x l -> y <= x) -> filter (fun j => j <? y) l = []) as K.
  { induction l as [|a l IH]; intros Hl; auto. simpl. pose proof (Hl a (or_introl eq_refl)). destruct (Nat.ltb_spec a y); [lia|].
    apply IH. intros; apply Hl; now right. }
  rewrite K; [simpl; lia|]. intros x Hx. apply in_seq in Hx. lia.
Qed.
Lemma upto_seq : forall n x, x < n -> upto L x (seq 0 n) = S x.
Proof.
  intros n x H. rewrite <- (below_seq n (S x)) by lia. unfold upto, below. f_equal. apply filter_ext. intros a.
  destruct (Nat.ltb_spec x a), (Nat.ltb_spec a (S x)); simpl; auto; lia.
Qed.
Lemma gap_count : forall n xs x y, Permutation xs (seq 0 n) -> x < n -> y < n -> x <> y ->
  cnt (strad L x y) xs = Nat.max x y - Nat.min x y - 1.
Proof.
  assert (forall n xs x y, Permutation xs (seq 0 n) -> x < n -> y < n -> x < y -> cnt (strad L x y) xs = y - x - 1) as K.
  { intros n xs x y HP Hx Hy Hxy. pose proof (strad_between L nat_ltb_swo x y xs ltac:(now apply Nat.ltb_lt)) as E.
    rewrite (upto_perm L x _ _ HP), (below_perm L y _ _ HP), below_seq, upto_seq in E by lia. lia. }
  intros n xs x y HP Hx Hy Hxy. destruct (lt_eq_lt_dec x y) as [[H|H]|H]; [|lia|].
  - rewrite (K n) by auto. lia.
  - rewrite (cnt_ext _ _ (strad L y x)) by (intros; apply strad_sym). rewrite (K n) by auto. lia.
Qed.
Definition gap (n k : nat) : nat := Nat.max (wave_at n k) (wave_at n (S k)) - Nat.min (wave_at n k) (wave_at n (S k)) - 1.
Lemma wave_columns : forall n, 2 <= n -> oscillation L (wave n) = list_sum (map (gap n) (seq 0 (n - 1))).
Proof.
  intros n Hn. assert (length (wave n) = n) as HL by apply wit_length. rewrite oscillation_columns, HL. apply list_sum_ext. intros k Hk. apply in_seq in Hk.
  pose proof (wave_perm n Hn) as HP.
  assert (forall i, i < n -> nth_error (wave n) i = Some (wave_at n i)) as Hw by (intros; unfold wave; now rewrite nth_map_seq).
  assert (forall i, i < n -> wave_at n i < n) as Hb.
  { intros i Hi. assert (In (wave_at n i) (seq 0 n)) as G; [|apply in_seq in G; lia].
    eapply Permutation_in; [exact HP|]. eapply nth_error_In. apply Hw; auto. }
  pose proof (column L (wave n) k _ _ (Hw k ltac:(lia)) (Hw (S k) ltac:(lia))) as HC.
  rewrite HL in HC. rewrite HC. apply (gap_count n); auto.
  1,2: apply Hb; lia.
  intros E. assert (NoDup (wave n)) as HN by (eapply Permutation_NoDup; [apply Permutation_sym; exact HP|apply seq_NoDup]).
  apply (proj1 (NoDup_nth_error _)) with (i := k) (j := S k) in HN; [lia|unfold wave; rewrite wit_length; lia|].
  rewrite !Hw by lia. congruence.
Qed.
Lemma gap_inner : forall n k, 3 <= n -> S (S k) < n -> gap n k = if k =? 0 then 1 else if Nat.odd k then n / 2 else n / 2 + 1.
Proof.
  intros n k Hn Hk. unfold gap, wave_at. destruct (even_cases k) as (p & [[E O]|[E O]]); rewrite Nat.odd_succ, <- Nat.negb_odd, O; simpl negb;
    destruct (Nat.eqb_spec k 0), (Nat.eqb_spec (S k) 0), (Nat.eqb_spec (S k) n), (Nat.eqb_spec (S (S k)) n); lia.
Qed.
Lemma gaps_sum : forall n j, 3 <= n -> 2 * j + 2 < n ->
  list_sum (map (gap n) (seq 0 (2 * j + 1))) = 1 + j * (2 * (n / 2) + 1).
Proof.
  intros n. induction j as [|j IH]; intros Hn Hj.
  - cbn -[gap Nat.div]. rewrite gap_inner by lia. simpl. lia.
  - replace (2 * S j + 1) with (2 * j + 1 + 1 + 1) by lia. rewrite seq_app, seq_app, !map_app, !list_sum_app, IH by lia. cbn [map seq].
    rewrite !gap_inner by lia. destruct (Nat.eqb_spec (0 + (2 * j + 1)) 0), (Nat.eqb_spec (0 + (2 * j + 1 + 1)) 0); try lia.
    replace (Nat.odd (0 + (2 * j + 1))) with true by (symmetry; apply Nat.odd_spec; exists j; lia).
    replace (Nat.odd (0 + (2 * j + 1 + 1))) with false.
    2:{ symmetry. rewrite <- Nat.negb_even. replace (Nat.even (0 + (2 * j + 1 + 1))) with true; auto. symmetry. apply Nat.even_spec. exists (j + 1). lia. }
    rewrite !list_sum_cons. change (list_sum []) with 0. set (h := n / 2). clearbody h. nia.
Qed.
Lemma wave_oscillation : forall n, 2 <= n -> oscillation L (wave n) = n * (n - 2) / 2.
Proof.
  intros n Hn. rewrite wave_columns by auto. destruct (Nat.eq_dec n 2) as [->|H2]; [reflexivity|].
  destruct (Nat.eq_dec n 3) as [->|H3]; [reflexivity|].
  destruct (even_cases n) as (p & [[E O]|[E O]]).
  - destruct (Nat.eq_dec p 2) as [->|Hp]; [subst; reflexivity|].
    replace (n - 1) with (2 * (p - 2) + 1 + 1 + 1) by lia. rewrite seq_app, seq_app, !map_app, !list_sum_app, gaps_sum by lia. cbn [map seq].
    rewrite !list_sum_cons. change (list_sum []) with 0. rewrite (gap_inner n (0 + (2 * (p - 2) + 1))) by lia.
    destruct (Nat.eqb_spec (0 + (2 * (p - 2) + 1)) 0); [lia|].
    replace (Nat.odd (0 + (2 * (p - 2) + 1))) with true by (symmetry; apply Nat.odd_spec; exists (p - 2); lia).
    assert (gap n (0 + (2 * (p - 2) + 1 + 1)) = 1) as ->.
    { unfold gap, wave_at. replace (Nat.odd (0 + (2 * (p - 2) + 1 + 1))) with false.
      2:{ symmetry. rewrite <- Nat.negb_even. replace (Nat.even _) with true; auto. symmetry. apply Nat.even_spec. exists (p - 1). lia. }
      destruct (Nat.eqb_spec (0 + (2 * (p - 2) + 1 + 1)) 0), (Nat.eqb_spec (S (0 + (2 * (p - 2) + 1 + 1))) 0),
        (Nat.eqb_spec (S (0 + (2 * (p - 2) + 1 + 1))) n), (Nat.eqb_spec (S (S (0 + (2 * (p - 2) + 1 + 1)))) n); lia. }
    replace (n / 2) with p by lia. subst n. replace (2 * p * (2 * p - 2) / 2) with (p * (2 * p - 2)).
    2:{ replace (2 * p * (2 * p - 2)) with (p * (2 * p - 2) * 2) by lia. now rewrite Nat.div_mul. }
    destruct p as [|[|q]]; try lia.
  - replace (n - 1) with (2 * (p - 1) + 1 + 1) by lia. rewrite seq_app, !map_app, !list_sum_app, gaps_sum by lia. cbn [map seq].
    rewrite !list_sum_cons. change (list_sum []) with 0.
    assert (gap n (0 + (2 * (p - 1) + 1)) = p - 1) as ->.
    { unfold gap, wave_at. replace (Nat.odd (0 + (2 * (p - 1) + 1))) with true by (symmetry; apply Nat.odd_spec; exists (p - 1); lia).
      destruct (Nat.eqb_spec (0 + (2 * (p - 1) + 1)) 0), (Nat.eqb_spec (S (0 + (2 * (p - 1) + 1))) 0),
        (Nat.eqb_spec (S (0 + (2 * (p - 1) + 1))) n), (Nat.eqb_spec (S (S (0 + (2 * (p - 1) + 1)))) n); lia. }
    replace (n / 2) with p by lia. subst n. destruct p as [|q]; lia.
Qed.

(** * Greatest values *)
Lemma returns_mono : forall A X (prog : nat -> nat -> M A X) xs (P Q : X -> Prop),
  (forall r, P r -> Q r) -> returns prog xs P -> returns prog xs Q.
Proof. intros A X prog xs P Q H HP pre post. destruct (HP pre post) as (r & E & Hr). eauto. Qed.

Lemma greatest : forall (prog : nat -> nat -> M nat nat) (maxf : nat -> nat) n (P : list nat -> nat -> Prop) w,
  (forall xs, returns prog xs (fun r => P xs r)) -> (forall xs r, P xs r -> r <= maxf (length xs)) ->
  length w = n -> (forall r, P w r -> maxf n <= r) -> greatest_for_size Nat.le prog n (maxf n).
Proof.
  intros prog maxf n P w H1 H2 Hw H3. split.
  - intros xs <-. eapply returns_mono; [|apply H1]. intros r Hr. now apply H2.
  - exists w. split; auto. eapply returns_mono; [|apply H1]. intros r Hr. cbv beta in *.
    specialize (H2 _ _ Hr). rewrite Hw in H2. specialize (H3 _ Hr). lia.
Qed.

Lemma desc_sorting : forall n, is_sorting_of Nat.ltb (desc n) (seq 0 n).
Proof. intros n. split; [apply desc_perm|apply seq_sorted]. Qed.
Lemma rot_sorting : forall n, is_sorting_of Nat.ltb (rot n) (seq 0 n).
Proof. intros n. split; [apply rot_perm|apply seq_sorted]. Qed.
