(** ska_sorter. *)
From Coq Require Import List Arith NArith Lia Permutation Bool.
From Verif Require Import Spec.Order Lang.Mem Spec.Sorts Proofs.Wp Proofs.OrderLib Model.Indirect Proofs.Indirect Proofs.Search Proofs.Regions Proofs.Bins Model.Pdq Proofs.Pdq Model.Ska
  Proofs.SkaLib Proofs.SkaSwaps Proofs.SkaByte.
Import ListNotations.
Local Arguments nth_error : simpl never.
Local Arguments upd : simpl never.
Local Arguments Nat.leb : simpl never.
Local Arguments Nat.ltb : simpl never.
Local Arguments Nat.eqb : simpl never.
Local Arguments Nat.sub : simpl never.
Local Arguments loop : simpl never.
Local Opaque seq.

Lemma flat_map_ext_in : forall X Y (g h : X -> list Y) l, (forall x, In x l -> g x = h x) -> flat_map g l = flat_map h l.
Proof. induction l as [|x l IH]; intros H; auto. cbn [flat_map]. rewrite H by now left. f_equal. apply IH. intros y Hy. apply H. now right. Qed.

Section Ska.
Context {A T : Type} (less : T -> T -> bool) (proj : A -> T) (sub_key : T -> N) (branchless : bool) (std_thr am_thr : nat).
Local Notation lt := (by_proj less proj).
Local Notation key x := (sub_key (proj x)).
Implicit Types (m : mem A).
Hypothesis HC : strict_weak_order less.
Lemma std_sort_wp : forall xs m f, seg m f xs ->
  wp (std_sort_if_less_than_threshold less proj branchless std_thr f (f + length xs) (length xs))
    (fun b m' => if b : bool then exists ys, seg m' f ys /\ is_sorting_of lt xs ys /\ only (within f (length xs)) m m' else m' = m /\ 1 < length xs) m.
Proof.
  intros xs m f HS. unfold std_sort_if_less_than_threshold. destruct (Nat.leb_spec (length xs) 1) as [H1|H1].
  - apply wp_ret. exists xs. split; auto. split; [|apply only_refl]. split; auto. intros i j x y Hij Hx Hy. apply nth_lt in Hy. lia.
  - destruct (Nat.leb_spec std_thr (length xs)); [now apply wp_ret|]. wstep.
    eapply (runs_seg (is_sorting_of lt) (pdq_sorter less proj true branchless)); [exact (pdq_sorts less proj HC branchless)| |exact HS|reflexivity|].
    + intros a b [H2 _]. now rewrite (Permutation_length H2).
    + intros ys m' HR HS' HO. apply wp_ret. exists ys. auto.
Qed.

Variable P : A -> Prop.
Hypothesis HK : forall x y, P x -> P y -> less (proj x) (proj y) = true -> (key x <= key y)%N.
Variable next_sort : option (nat -> nat -> nat -> M A unit).

(** The bytes before the last [k]. *)
Definition prefix (k : nat) (x : A) : N := (key x / 256 ^ N.of_nat k)%N.

Lemma prefix_byte : forall k x, 0 < k -> prefix (k - 1) x = (256 * prefix k x + N.of_nat (current_byte proj sub_key k x))%N.
Proof.
  intros k x Hk. unfold prefix, current_byte. rewrite N2Nat.id. set (q := N.of_nat (k - 1)). replace (N.of_nat k) with (N.succ q) by (unfold q; lia).
  rewrite N.pow_succ_r', (N.mul_comm 256 (256 ^ q)), <- N.div_div by (try apply N.pow_nonzero; discriminate). now apply N.div_mod.
Qed.
Lemma prefix_lt : forall k x y, (prefix k x < prefix k y)%N -> (key x < key y)%N.
Proof. intros k x y H. unfold prefix in H. destruct (N.lt_ge_cases (key x) (key y)) as [|H1]; auto. exfalso. apply (N.div_le_mono _ _ (256 ^ N.of_nat k)) in H1; [lia|now apply N.pow_nonzero]. Qed.
Lemma prefix_0 : forall x, prefix 0 x = key x.
Proof. intros x. unfold prefix. apply N.div_1_r. Qed.

Definition same_prefix (k : nat) (xs : list A) : Prop := forall x y, In x xs -> In y xs -> prefix k x = prefix k y.

(** A sort of the ranges whose elements differ by the last [k] bytes only. *)
Definition sorts_bytes (k : nat) (prog : nat -> nat -> nat -> M A unit) : Prop :=
  forall xs m f, 1 < length xs -> Forall P xs -> same_prefix k xs -> seg m f xs ->
    wp (prog f (f + length xs) (length xs)) (fun _ m' => exists ys, seg m' f ys /\ is_sorting_of lt xs ys /\ only (within f (length xs)) m m') m.

(** If there is no next sort, the key decides; else the next sort sorts the ranges of elements of the same key. *)
Hypothesis HE : next_sort = None -> forall x y, P x -> P y -> less (proj x) (proj y) = true -> key x <> key y.
Hypothesis HNS : forall sort, next_sort = Some sort -> sorts_bytes 0 sort.

Section Step.
Variables (k : nat) (next : nat -> nat -> nat -> M A unit).
Hypothesis Hk : 0 < k.
Hypothesis HN : negb (k =? 1) || has_next next_sort = true -> sorts_bytes (k - 1) next.
Hypothesis HE1 : negb (k =? 1) || has_next next_sort = false -> forall x y, P x -> P y -> less (proj x) (proj y) = true -> key x <> key y.
Local Notation byte := (current_byte proj sub_key k).
Context (xs : list A) (f : nat) (m0 : mem A).
Hypothesis HPx : Forall P xs.
Hypothesis HSP : same_prefix k xs.
Local Notation n := (length xs).
Local Notation cnt := (cnt byte xs).
Local Notation start := (start byte xs).
Let HB : forall x, In x xs -> byte x < 256 := fun x _ => byte_lt proj sub_key k x.

Lemma byte_order : forall x y, In x xs -> In y xs -> byte x < byte y -> lt y x = false.
Proof.
  intros x y Hx Hy H. unfold by_proj. destruct (less (proj y) (proj x)) eqn:E; auto. exfalso. rewrite Forall_forall in HPx. apply HK in E; auto.
  assert (key x < key y)%N; [|lia]. apply (prefix_lt (k - 1)). rewrite !prefix_byte by auto. rewrite (HSP x y) by auto. lia.
Qed.
Lemma byte_same : forall zs, (forall z, In z zs -> In z xs) -> (forall y z, In y zs -> In z zs -> byte y = byte z) -> same_prefix (k - 1) zs.
Proof. intros zs HI HS x y Hx Hy. rewrite !prefix_byte by auto. rewrite (HSP x y), (HS x y); auto. Qed.

Section Blocks.
Variable ys : list A.
Hypothesis HP : Permutation xs ys.
Hypothesis HBl : blocked byte xs ys.
Local Notation reg := (region byte xs ys).

Definition blocks (done : nat -> Prop) m : Prop := exists g, seg m f (flat_map g (seq 0 256)) /\ only (within f n) m0 m /\
  forall p, p < 256 -> Permutation (reg p) (g p) /\ (done p -> sorted lt (g p)).

Lemma flat_len : forall g p, p <= 256 -> (forall q, q < 256 -> Permutation (reg q) (g q)) -> length (flat_map g (seq 0 p)) = start p.
Proof.
  intros g p Hp HG. induction p as [|p IH]; auto. rewrite seq_S, flat_map_app, app_length, IH by lia. cbn [flat_map plus]. rewrite app_nil_r, start_S, <- (Permutation_length (HG p ltac:(lia))).
  rewrite (region_length 256 byte xs HB); auto. now rewrite (Permutation_length HP).
Qed.
Lemma flat_split : forall (g : nat -> list A) p, p < 256 -> flat_map g (seq 0 256) = flat_map g (seq 0 p) ++ g p ++ flat_map g (seq (S p) (255 - p)).
Proof.
  intros g p Hp. replace (seq 0 256) with (seq 0 (p + S (255 - p))) by (f_equal; lia). rewrite seq_app, flat_map_app. cbn [plus]. rewrite <- cons_seq. reflexivity.
Qed.
Lemma reg_in : forall p x, In x (reg p) -> In x xs /\ byte x = p.
Proof.
  intros p x Hx. split; [|eapply (region_bin 256 byte xs HB); eauto]. eapply Permutation_in; [symmetry; exact HP|]. apply In_nth_error in Hx as (i & Hi). apply (region_nth 256 byte xs HB) in Hi as [Hi _]. eapply nth_error_In; eauto.
Qed.

Lemma sort_one : forall done p m, p < 256 -> negb (k =? 1) || has_next next_sort = true -> blocks done m ->
  wp (sort_partition less proj branchless std_thr next (f + start p) (f + start (S p)) (start (S p) - start p)) (fun _ m' => blocks (fun q => done q \/ q = p) m') m.
Proof.
  intros done p m Hp Hk1 (g & HS & HO & HG). rewrite (flat_split g p Hp) in HS. apply seg_app in HS as [HS1 HS2]. apply seg_app in HS2 as [HS2 HS3].
  assert (HL : length (g p) = cnt p). { rewrite <- (Permutation_length (proj1 (HG p Hp))). apply (region_length 256 byte xs HB); auto. now rewrite (Permutation_length HP). }
  assert (HL1 : length (flat_map g (seq 0 p)) = start p) by (apply flat_len; [lia|intros; now apply HG]).
  rewrite HL1 in HS2, HS3. pose proof (start_le proj sub_key k xs (S p) ltac:(lia)) as HLs. rewrite start_S in HLs. rewrite start_S. replace (start p + cnt p - start p) with (length (g p)) by lia. replace (f + (start p + cnt p)) with (f + start p + length (g p)) by lia.
  assert (HX : forall z, In z (g p) -> In z xs /\ byte z = p). { intros z Hz. apply reg_in. eapply Permutation_in; [symmetry; apply (HG p Hp)|auto]. }
  assert (HF : forall m' zs, seg m' (f + start p) zs -> is_sorting_of lt (g p) zs -> only (within (f + start p) (length (g p))) m m' -> blocks (fun q => done q \/ q = p) m').
  { intros m' zs HSz [HPz Hsz] HO'. exists (fun q => if q =? p then zs else g q). split; [|split].
    - rewrite (flat_split _ p Hp). rewrite Nat.eqb_refl.
      assert (E1 : flat_map (fun q => if q =? p then zs else g q) (seq 0 p) = flat_map g (seq 0 p)). { apply flat_map_ext_in. intros q Hq. apply in_seq in Hq. destruct (Nat.eqb_spec q p); [lia|auto]. }
      assert (E2 : flat_map (fun q => if q =? p then zs else g q) (seq (S p) (255 - p)) = flat_map g (seq (S p) (255 - p))). { apply flat_map_ext_in. intros q Hq. apply in_seq in Hq. destruct (Nat.eqb_spec q p); [lia|auto]. }
      rewrite E1, E2. apply seg_app. split; [|apply seg_app; split].
      + eapply seg_only; [exact HO'| |exact HS1]. unfold within. intros. lia.
      + now rewrite HL1.
      + rewrite HL1, <- (Permutation_length HPz). eapply seg_only; [exact HO'| |exact HS3]. unfold within. intros. lia.
    - eapply only_trans; [exact HO|]. eapply only_weaken; [exact HO'|]. unfold within. intros. lia.
    - intros q Hq. destruct (HG q Hq) as [G1 G2]. destruct (Nat.eqb_spec q p) as [->|]. { split; auto. now rewrite G1. } split; auto. intros [H|H]; [auto|contradiction]. }
  unfold sort_partition. wstep. eapply wp_mono; [now apply std_sort_wp|]. intros [|] m' H.
  - apply wp_ret. destruct H as (zs & H1 & H2 & H3). eauto.
  - destruct H as [-> HL2]. eapply wp_mono; [apply (HN Hk1); auto|].
    + rewrite Forall_forall in *. intros z Hz. apply HPx. now apply HX.
    + apply byte_same. { intros z Hz. now apply HX. } intros y z Hy Hz. destruct (HX y Hy), (HX z Hz). congruence.
    + intros u m' (zs & H1 & H2 & H3). eauto.
Qed.

(** All the regions sorted. *)
Lemma blocks_sorted : forall m, blocks (fun p => 0 < cnt p) m -> exists zs, seg m f zs /\ is_sorting_of lt xs zs /\ only (within f n) m0 m.
Proof.
  intros m (g & HS & HO & HG). exists (flat_map g (seq 0 256)). split; auto. split; auto.
  assert (HQ : forall q, q <= 256 -> Permutation (flat_map reg (seq 0 q)) (flat_map g (seq 0 q)) /\ sorted lt (flat_map g (seq 0 q)) /\ forall x, In x (flat_map g (seq 0 q)) -> In x xs /\ byte x < q).
  { induction q as [|q IH]; intros Hq. { split; [constructor|]. split; [apply sorted_nil|]. intros x []. }
    destruct (IH ltac:(lia)) as (I1 & I2 & I3). destruct (HG q ltac:(lia)) as [G1 G2]. rewrite seq_S, !flat_map_app. cbn [flat_map plus]. rewrite !app_nil_r.
    assert (HX : forall z, In z (g q) -> In z xs /\ byte z = q). { intros z Hz. apply reg_in. eapply Permutation_in; [symmetry; exact G1|auto]. }
    split; [now apply Permutation_app|]. split.
    - apply sorted_app. split; auto. split.
      + destruct (Nat.eq_dec (cnt q) 0) as [E|E]; [|apply G2; lia]. assert (length (g q) = 0). { rewrite <- (Permutation_length G1). rewrite (region_length 256 byte xs HB); auto. now rewrite (Permutation_length HP). }
        destruct (g q); [apply sorted_nil|discriminate].
      + intros x y Hx Hy. destruct (I3 x Hx), (HX y Hy). apply byte_order; auto. lia.
    - intros x Hx. apply in_app_iff in Hx as [Hx|Hx]; [destruct (I3 x Hx)|destruct (HX x Hx)]; split; auto; lia. }
  destruct (HQ 256) as (H1 & H2 & _); auto. split; auto. rewrite HP. rewrite (regions_concat 256 byte xs HB ys) in H1; auto. now rewrite (Permutation_length HP).
Qed.

Lemma blocks_init : forall (done : nat -> Prop) m, seg m f ys -> only (within f n) m0 m -> (forall p, done p -> sorted lt (reg p)) -> blocks done m.
Proof.
  intros done m HS HO HD. exists reg. split; [|split; auto]. rewrite (regions_concat 256 byte xs HB ys); auto. now rewrite (Permutation_length HP).
Qed.

Lemma american_recurse_wp : forall q p (done : nat -> Prop) m, q = 256 - p -> p <= 256 -> negb (k =? 1) || has_next next_sort = true -> (forall r, r < p -> 0 < cnt r -> done r) -> blocks done m ->
  wp (american_recurse less proj branchless std_thr next f (anext proj sub_key k xs) (filter (nonempty proj sub_key k xs) (seq p q)) (start p)) (fun _ m' => blocks (fun r => 0 < cnt r) m') m.
Proof.
  induction q as [|q IH]; intros p done m Hq Hp Hk1 HD HBm.
  - apply wp_ret. destruct HBm as (g & G1 & G2 & G3). exists g. split; auto. split; auto. intros r Hr. destruct (G3 r Hr) as [E1 E2]. split; auto. intros Hc. apply E2. apply HD; auto. lia.
  - rewrite <- cons_seq. cbn [filter]. destruct (nonempty proj sub_key k xs p) eqn:E.
    + cbn [american_recurse]. wstep. apply wp_rd_anext; auto; [lia|]. wstep. eapply wp_mono; [apply sort_one; eauto; lia|]. intros u m' H. apply (IH (S p) (fun r => done r \/ r = p)); auto; [lia|lia|].
      intros r Hr Hc. destruct (Nat.eq_dec r p); [now right|left; apply HD; auto; lia].
    + apply empty_spec in E. rewrite <- (empty_start proj sub_key k xs p E). apply (IH (S p) done); auto; [lia|lia|]. intros r Hr Hc. destruct (Nat.eq_dec r p) as [->|]; [lia|]. apply HD; auto. lia.
Qed.

Lemma ska_recurse_wp : forall l (done : nat -> Prop) m, (forall p, In p l -> p < 256) -> negb (k =? 1) || has_next next_sort = true -> (forall r, r < 256 -> 0 < cnt r -> done r \/ In r l) -> blocks done m ->
  wp (ska_recurse less proj branchless std_thr next f (snext proj sub_key k xs) l) (fun _ m' => blocks (fun r => 0 < cnt r) m') m.
Proof.
  induction l as [|p l IH]; intros done m Hl Hk1 HD HBm.
  - apply wp_ret. destruct HBm as (g & G1 & G2 & G3). exists g. split; auto. split; auto. intros r Hr. destruct (G3 r Hr) as [E1 E2]. split; auto. intros Hc. apply E2. destruct (HD r Hr Hc) as [|[]]; auto.
  - assert (Hp : p < 256) by (apply Hl; now left). cbn [ska_recurse]. wstep.
    assert (HG : wp (if p =? 0 then ret 0 else rd_init (snext proj sub_key k xs) (p - 1)) (fun s m' => s = start p /\ m' = m) m).
    { destruct (Nat.eqb_spec p 0) as [->|]; [now apply wp_ret|]. apply wp_rd_snext; [lia|]. replace (S (p - 1)) with p by lia. auto. }
    eapply wp_mono; [exact HG|]. intros s m' [-> ->]. wstep. apply wp_rd_snext; auto. wstep. eapply wp_mono; [apply sort_one; eauto|]. intros u m' H. apply (IH (fun r => done r \/ r = p)); auto.
    + intros r Hr. apply Hl. now right.
    + intros r Hr Hc. destruct (HD r Hr Hc) as [|[->|]]; auto.
Qed.
End Blocks.

(** The last byte: the elements of a region are equivalent. *)
Lemma last_byte : negb (k =? 1) || has_next next_sort = false -> forall ys p, Permutation xs ys -> blocked byte xs ys -> sorted lt (region byte xs ys p).
Proof.
  intros E ys p HP HBl i j x y Hij Hx Hy. apply nth_error_In in Hx, Hy. destruct (reg_in ys HP HBl p x Hx) as [X1 X2]. destruct (reg_in ys HP HBl p y Hy) as [Y1 Y2].
  unfold by_proj. destruct (less (proj y) (proj x)) eqn:EL; auto. exfalso. rewrite Forall_forall in HPx. apply (HE1 E) in EL; auto. apply orb_false_iff in E as [E _]. apply negb_false_iff, Nat.eqb_eq in E.
  assert (EK : prefix (k - 1) y = prefix (k - 1) x). { rewrite !prefix_byte by auto. now rewrite (HSP y x), X2, Y2. }
  replace (k - 1) with 0 in EK by lia. rewrite !prefix_0 in EK. congruence.
Qed.
End Step.

Lemma american_flag_sort_wp : forall k next xs m f, 0 < k -> (negb (k =? 1) || has_next next_sort = true -> sorts_bytes (k - 1) next) -> Forall P xs -> same_prefix k xs -> seg m f xs ->
  wp (american_flag_sort less proj sub_key branchless std_thr next_sort next k f (f + length xs)) (fun _ m' => exists ys, seg m' f ys /\ is_sorting_of lt xs ys /\ only (within f (length xs)) m m') m.
Proof.
  intros k next xs m f Hk HN HPx HSP HS. unfold american_flag_sort. wstep. eapply wp_mono; [now apply count_bytes_wp|]. intros off m' [-> ->].
  wstep. eapply wp_mono; [apply american_partitions_wp|]. intros [[o nx] r] m' (-> & -> & -> & ->). wstep. eapply wp_mono; [now apply (american_swaps_wp proj sub_key k xs f m)|].
  intros u m' (ys & (HS' & HP & HO) & HBl). 
  assert (HE1 : negb (k =? 1) || has_next next_sort = false -> forall x y, P x -> P y -> less (proj x) (proj y) = true -> key x <> key y).
  { intros E. apply HE. apply orb_false_iff in E as [_ E]. destruct next_sort; [discriminate|auto]. }
  destruct (Bool.bool_dec (negb (k =? 1) || has_next next_sort) true) as [E|E]; [rewrite E|apply not_true_is_false in E; rewrite E]; cbn [negb].
  - eapply wp_mono; [eapply (american_recurse_wp k next Hk HN xs f m HPx HSP ys HP HBl 256 0 (fun _ => False)); auto; [lia|lia|]|].
    + apply blocks_init; auto. intros p [].
    + intros v m2 H. now apply (blocks_sorted k next Hk HE1 xs f m HPx HSP ys HP HBl).
  - apply wp_ret. apply (blocks_sorted k next Hk HE1 xs f m HPx HSP ys HP HBl). apply blocks_init; auto. intros p _. apply (last_byte k next Hk HE1 xs HPx HSP E); auto.
Qed.

Lemma ska_byte_sort_wp : forall k next xs m f, 0 < k -> (negb (k =? 1) || has_next next_sort = true -> sorts_bytes (k - 1) next) -> Forall P xs -> same_prefix k xs -> seg m f xs ->
  wp (ska_byte_sort less proj sub_key branchless std_thr next_sort next k f (f + length xs)) (fun _ m' => exists ys, seg m' f ys /\ is_sorting_of lt xs ys /\ only (within f (length xs)) m m') m.
Proof.
  intros k next xs m f Hk HN HPx HSP HS. unfold ska_byte_sort. wstep. eapply wp_mono; [now apply count_bytes_wp|]. intros off m' [-> ->].
  wstep. eapply wp_mono; [apply ska_partitions_wp|]. intros [[o nx] r] m' (-> & -> & -> & ->). wstep. eapply wp_mono; [now apply (ska_swaps_wp proj sub_key k xs f m)|].
  intros r m' (HPr & ys & (HS' & HP & HO) & HBl). 
  assert (HE1 : negb (k =? 1) || has_next next_sort = false -> forall x y, P x -> P y -> less (proj x) (proj y) = true -> key x <> key y).
  { intros E. apply HE. apply orb_false_iff in E as [_ E]. destruct next_sort; [discriminate|auto]. }
  destruct (Bool.bool_dec (negb (k =? 1) || has_next next_sort) true) as [E|E]; [rewrite E|apply not_true_is_false in E; rewrite E]; cbn [negb].
  - eapply wp_mono; [eapply (ska_recurse_wp k next Hk HN xs f m HPx HSP ys HP HBl (rev r) (fun _ => False)); auto|].
    + intros p Hp. apply in_rev in Hp. eapply Permutation_in in Hp; [|symmetry; exact HPr]. now apply rem_in in Hp.
    + intros p Hp Hc. right. rewrite <- in_rev. eapply Permutation_in; [exact HPr|]. now apply rem_in.
    + apply blocks_init; auto. intros p [].
    + intros v m2 H. now apply (blocks_sorted k next Hk HE1 xs f m HPx HSP ys HP HBl).
  - apply wp_ret. apply (blocks_sorted k next Hk HE1 xs f m HPx HSP ys HP HBl). apply blocks_init; auto. intros p _. apply (last_byte k next Hk HE1 xs HPx HSP E); auto.
Qed.

Lemma unsigned_sorts : forall k, 0 < k \/ has_next next_sort = true -> sorts_bytes k (unsigned_inplace_sort less proj sub_key branchless std_thr am_thr next_sort k).
Proof.
  induction k as [|k IH]; intros Hk xs m f HL HPx HSP HS.
  - destruct next_sort as [sort|] eqn:E; [|destruct Hk; [lia|discriminate]]. cbn [unsigned_inplace_sort]. now apply (HNS sort eq_refl).
  - cbn [unsigned_inplace_sort].
    assert (HN : negb (S k =? 1) || has_next next_sort = true -> sorts_bytes (S k - 1) (unsigned_inplace_sort less proj sub_key branchless std_thr am_thr next_sort k)).
    { intros E. replace (S k - 1) with k by lia. apply IH. apply orb_true_iff in E as [E|E]; [left|now right]. apply negb_true_iff, Nat.eqb_neq in E. lia. }
    destruct (length xs <? am_thr); [apply american_flag_sort_wp; auto; lia|apply ska_byte_sort_wp; auto; lia].
Qed.
End Ska.
