(** string_spread_sorter. *)
From Coq Require Import List Arith ZArith Lia Permutation Bool.
From Verif Require Import Spec.Order Lang.Mem Spec.Sorts Proofs.Wp Proofs.OrderLib Model.Basic Model.Indirect Proofs.Indirect Proofs.Search Proofs.Regions Proofs.Bins
  Model.Pdq Proofs.Pdq Model.Counting Model.Comparators Proofs.Comparators Model.Ska Proofs.SkaLib Proofs.SkaKeys Model.Spread Proofs.SpreadBins Proofs.SpreadFloat Model.SpreadString Proofs.SpreadPlace Proofs.SpreadPrefix.
Import ListNotations.
Local Open Scope nat_scope.
Local Arguments nth_error : simpl never.
Local Arguments upd : simpl never.
Local Arguments Nat.leb : simpl never.
Local Arguments Nat.ltb : simpl never.
Local Arguments Nat.eqb : simpl never.
Local Arguments Nat.sub : simpl never.
Local Arguments Nat.pow : simpl never.
Local Arguments loop : simpl never.
Local Opaque seq bin_count.

Lemma sorting_agree : forall A (lt less : A -> A -> bool) xs ys, (forall x y, In x xs -> In y xs -> less x y = lt x y) -> is_sorting_of less xs ys -> is_sorting_of lt xs ys.
Proof.
  intros A lt less xs ys H [HP HS]. split; auto. intros i j x y Hij Hx Hy. rewrite <- H; [eapply HS; eauto| |]; (eapply Permutation_in; [symmetry; exact HP|eapply nth_error_In; eauto]).
Qed.

Section Sort.
Context {A : Type} (cs : nat) (proj : A -> list Z) (branchless : bool).
Implicit Types (m : mem A).
Hypothesis Hcs : cs = 1 \/ cs = 2.
Local Notation size x := (length (proj x)).
Local Notation nb := (bin_count cs + 1).

Lemma bin_count_pos : 2 <= bin_count cs.
Proof. Transparent bin_count. unfold bin_count. destruct Hcs as [E|E]; rewrite E. - apply (Nat.pow_le_mono_r 2 1 8); lia. - apply (Nat.pow_le_mono_r 2 1 16); lia. Qed.
Opaque bin_count.

(** What the recursive functions do on strings of fewer than [N] characters. *)
Definition ssorts (lt : A -> A -> bool) (off N : nat) (rec : nat -> nat -> list (option nat) -> nat -> M A (list (option nat))) : Prop :=
  forall xs m f c o, 1 <= length xs -> sharing cs proj off xs -> (forall x, In x xs -> size x < N) -> seg m f xs -> o <= length c ->
    wp (rec f (f + length xs) c o) (fun c' m' => (exists ys, seg m' f ys /\ is_sorting_of lt xs ys /\ only (within f (length xs)) m m') /\ length c <= length c' /\ firstn o c' = firstn o c) m.

Lemma sort_string_bins_wp : forall (lt less : A -> A -> bool) rec (bin : A -> nat) xs ys f m0 cp off N lo hi,
  (forall x, In x xs -> bin x < nb) -> Permutation xs ys -> blocked bin xs ys -> strict_weak_order less ->
  (forall x y, In x xs -> In y xs -> bin x = bin y -> lo <= bin x < hi -> less x y = lt x y) ->
  ssorts lt off N rec -> (forall x, In x xs -> size x < N) -> (forall p zs, lo <= p < hi -> (forall z, In z zs -> In z xs /\ bin z = p) -> sharing cs proj off zs) -> hi <= nb ->
  forall k r c m (done : nat -> Prop), lo <= r -> r + k <= hi ->
    length cp + nb <= length c -> firstn (length cp + nb) c = cp ++ map (fun p => Some (f + start bin xs (S p))) (seq 0 nb) ->
    sblocks lt nb bin xs ys f m0 done m ->
    wp (sort_string_bins cs branchless less rec (seq (length cp + r) k) (length cp + nb) (f + start bin xs r) c)
      (fun c' m' => (length c <= length c' /\ firstn (length cp + nb) c' = firstn (length cp + nb) c) /\ sblocks lt nb bin xs ys f m0 (fun p => done p \/ r <= p < r + k) m') m.
Proof.
  intros lt less rec bin xs ys f m0 cp off N lo hi HB HP HBl HW Hag Hrec HN Hsh Hhi. induction k as [|k IH]; intros r c m done Hr Hrk Hlen Hc HS.
  - cbn [sort_string_bins]. apply wp_ret. rewrite Nat.add_0_r. split; auto. eapply sblocks_weaken; [|exact HS]. intros p Hp [|]; auto; lia.
  - rewrite <- cons_seq. cbn [sort_string_bins].
    assert (HNth : forall c', firstn (length cp + nb) c' = firstn (length cp + nb) c -> nth_error c' (length cp + r) = Some (Some (f + start bin xs (S r)))).
    { intros c' H. assert (E : nth_error (firstn (length cp + nb) c') (length cp + r) = nth_error c' (length cp + r)) by (apply nth_firstn_lt; lia). rewrite <- E, H, Hc.
      rewrite nth_error_app2 by lia. replace (length cp + r - length cp) with r by lia. rewrite nth_map_seq by lia. reflexivity. }
    wstep. unfold rd_init at 1. wstep. eapply wp_rd; [apply HNth; auto|]. apply wp_ret. wstep.
    rewrite start_S. replace (f + (start bin xs r + cnt bin xs r) - (f + start bin xs r)) with (cnt bin xs r) by lia.
    eapply wp_mono.
    { apply (sblocks_step lt nb bin xs ys f m0 HB HP HBl done r m _ _ (fun c' => length c <= length c' /\ firstn (length cp + nb) c' = firstn (length cp + nb) c)); auto; [lia|].
      intros zs HSz HLz HIn. replace (f + (start bin xs r + cnt bin xs r)) with (f + start bin xs r + length zs) by lia. destruct (Nat.ltb_spec (cnt bin xs r) 2) as [H2|H2].
      - apply wp_ret. split; auto. exists zs. split; auto. split; [|apply only_refl]. split; auto. intros i j x y Hij Hx Hy. apply nth_lt in Hy. lia.
      - destruct (Nat.ltb_spec (cnt bin xs r) (bin_count cs)) as [H3|H3].
        + wstep. eapply (runs_seg (is_sorting_of less) (pdq_sorter less (fun x => x) true branchless)); [exact (pdq_sorts less (fun x => x) HW branchless)| |exact HSz|reflexivity|].
          * intros a b [H _]. now rewrite (Permutation_length H).
          * intros ws m' HR HS' HO'. apply wp_ret. split; auto. exists ws. split; auto. split; auto. eapply sorting_agree; [|exact HR]. intros x y Hx Hy. destruct (HIn x Hx), (HIn y Hy). apply Hag; auto; try congruence. lia.
        + eapply wp_mono; [apply Hrec; auto; [lia| | ]|].
          * apply (Hsh r); auto. lia.
          * intros x Hx. apply HN. now apply HIn.
          * cbv beta. intros c' m' (H1 & H4 & H5). auto. }
    cbv beta. intros c' m' ((HL' & HF') & HS'). wstep. unfold rd_init at 1. wstep. eapply wp_rd; [apply HNth; congruence|]. apply wp_ret.
    replace (S (length cp + r)) with (length cp + S r) by lia.
    eapply wp_mono; [apply (IH (S r) c' m' (fun p => done p \/ p = r)); auto; try lia; try congruence|].
    intros c2 m2 [(K1 & K2) K3]. split; [split; [lia|congruence]|].
    eapply sblocks_weaken; [|exact K3]. intros p Hp [H|H]; auto. destruct (Nat.eq_dec p r); auto. right. lia.
Qed.

Lemma seg_sub : forall m f (xs : list A) i w, seg m f xs -> i + w <= length xs -> seg m (f + i) (firstn w (skipn i xs)).
Proof.
  intros m f xs i w HS H. rewrite <- (firstn_skipn i xs) in HS. apply seg_app in HS as [_ HS]. rewrite firstn_length in HS. replace (Nat.min i (length xs)) with i in HS by lia.
  rewrite <- (firstn_skipn w (skipn i xs)) in HS. now apply seg_app in HS as [HS _].
Qed.

Lemma update_wp : forall xs x0 m f off i k, sharing cs proj off xs -> seg m f xs -> nth_error xs i = Some x0 -> off < size x0 -> i < k <= length xs ->
  (forall j y, j < i -> nth_error xs j = Some y -> size y <= off) -> (forall j y, k <= j -> nth_error xs j = Some y -> size y <= off) ->
  wp (update_offset cs proj (f + i) (f + k) off) (fun r m' => m' = m /\ off <= r /\ r < size x0 /\ parted cs proj r xs) m.
Proof.
  intros xs x0 m f off i k HSh HS Hx0 Hs0 Hik HJ1 HJ2. set (zs := firstn (k - i) (skipn i xs)). assert (HLz : length zs = k - i) by (unfold zs; rewrite firstn_length, skipn_length; lia).
  assert (Hin0 : In x0 xs) by (eapply nth_error_In; eauto).
  assert (HZ : forall j, j < k - i -> nth_error zs j = nth_error xs (i + j)). { intros j Hj. unfold zs. rewrite nth_firstn_lt by lia. apply nth_skipn. }
  assert (HIn : forall z, In z zs -> In z xs). { intros z Hz. apply In_nth_error in Hz as (j & Hj). pose proof (nth_lt _ _ _ Hj). rewrite HZ in Hj by lia. eapply nth_error_In; eauto. }
  replace (f + k) with (f + i + length zs) by lia. assert (Hz0 : nth_error zs 0 = Some x0) by (rewrite HZ by lia; now rewrite Nat.add_0_r).
  eapply wp_mono; [apply (update_offset_wp cs proj zs x0 m (f + i) off Hcs); auto|].
  - apply seg_sub; auto. lia.
  - eapply sharing_incl; eauto.
  - cbv beta. intros r m' (-> & Hr & HA). split; auto. split; auto. destruct (HA x0) as [Hr0 _]; auto; [eapply nth_error_In; eauto|]. split; auto.
    apply (agree_parted cs proj xs x0 off); auto. intros x Hx Hl. apply In_nth_error in Hx as (j & Hj).
    destruct (Nat.lt_ge_cases j i) as [H|H]; [specialize (HJ1 j x H Hj); lia|]. destruct (Nat.lt_ge_cases j k) as [H'|H']; [|specialize (HJ2 j x H' Hj); lia].
    apply HA; auto. eapply nth_error_In. rewrite (HZ (j - i)) by lia. replace (i + (j - i)) with j by lia. exact Hj.
Qed.

Lemma parted_incl : forall off xs ys, parted cs proj off xs -> (forall y, In y ys -> In y xs) -> parted cs proj off ys.
Proof. intros off xs ys (p & k & H1 & H2) H. exists p, k. split; auto. Qed.
Lemma cache_prefix : forall (c : list (option nat)) o, o <= length c -> exists cp, length cp = o /\ firstn o c = cp.
Proof. intros c o H. exists (firstn o c). split; auto. rewrite firstn_length. lia. Qed.
Lemma string_bin_ok : forall off x m, string_bin cs proj off x m = Ok (cbin cs proj off x) m.
Proof.
  intros off x m. unfold string_bin, cbin. destruct (Nat.leb_spec (size x) off); auto. unfold char_bin, char_at. rewrite (nth_error_nth' _ 0%Z) by auto. reflexivity.
Qed.
Lemma char_bin_ok : forall off x m, cbin cs proj off x <> 0 -> char_bin cs proj off x m = Ok (cbin cs proj off x) m.
Proof.
  intros off x m. unfold cbin. destruct (Nat.leb_spec (size x) off); [congruence|]. intros _. unfold char_bin, char_at. rewrite (nth_error_nth' _ 0%Z) by auto. reflexivity.
Qed.
(** The bins of the other order. *)
Definition rbin (off : nat) (x : A) : nat := bin_count cs - cbin cs proj off x.
Lemma reverse_char_bin_ok : forall off x m, cbin cs proj off x <> 0 -> reverse_char_bin cs proj off x m = Ok (rbin off x) m.
Proof.
  intros off x m. unfold rbin, cbin. destruct (Nat.leb_spec (size x) off); [congruence|]. intros _. unfold reverse_char_bin, char_at. rewrite (nth_error_nth' _ 0%Z) by auto. cbn [bind ret].
  pose proof (uchar_lt cs (nth off (proj x) 0%Z)). unfold bind, ret. destruct (Nat.ltb_spec (bin_count cs - 1) (uchar cs (nth off (proj x) 0%Z))); [lia|]. f_equal. lia.
Qed.
Lemma reverse_string_bin_ok : forall off x m, reverse_string_bin cs proj off x m = Ok (rbin off x) m.
Proof.
  intros off x m. unfold reverse_string_bin. destruct (Nat.leb_spec (size x) off) as [H|H].
  - unfold rbin, cbin. destruct (Nat.leb_spec (size x) off); [|lia]. now rewrite Nat.sub_0_r.
  - apply reverse_char_bin_ok. unfold cbin. destruct (Nat.leb_spec (size x) off); [lia|discriminate].
Qed.

Lemma start_const : forall (bin : A -> nat) xs a b, a <= b -> (forall p, a <= p < b -> cnt bin xs p = 0) -> start bin xs b = start bin xs a.
Proof. intros bin xs a b Hab. induction Hab as [|b Hab IH]; intros H; auto. rewrite start_S, IH by (intros; apply H; lia). rewrite (H b) by lia. lia. Qed.
Lemma region_sorted_empty : forall (lt : A -> A -> bool) (bin : A -> nat) xs ys p, (forall x, In x xs -> bin x < nb) -> Permutation xs ys -> p < nb -> cnt bin xs p = 0 -> sorted lt (region bin xs ys p).
Proof.
  intros lt bin xs ys p HB HP Hp H. assert (HL : length (region bin xs ys p) = 0) by (rewrite (region_length nb bin xs HB); auto; now rewrite (Permutation_length HP)). intros i j x y Hij Hx Hy. apply nth_lt in Hy. lia.
Qed.

Local Notation lt := (by_proj (string_less cs) proj).
Local Notation gt := (by_proj (string_greater cs) proj).
Lemma gt_lex : forall x y, gt x y = lex (ustr cs proj y) (ustr cs proj x).
Proof. intros x y. change (gt x y) with (lt y x). apply less_lex. Qed.

(** * operator< *)
Lemma string_rec_sorts : forall fuel off, ssorts lt off (off + fuel) (fun f l c o => string_sort_rec cs proj branchless fuel f l off c o).
Proof.
  induction fuel as [|fuel IH]; intros off xs m f c o HL HSh HN HS Ho.
  { exfalso. destruct xs as [|x xs]; [cbn in HL; lia|]. specialize (HN x (or_introl eq_refl)). pose proof (sharing_size cs proj off (x :: xs) x HSh (or_introl eq_refl)). lia. }
  cbn [string_sort_rec]. wstep. eapply wp_mono; [apply (skip_ended_wp proj xs m f off); auto|]. cbv beta. intros r m' [-> Hr]. destruct r as [g|].
  2:{ apply wp_ret. split; auto. exists xs. split; auto. split; [|apply only_refl]. split; auto. intros i j x y Hij Hx Hy. apply nth_error_In in Hx, Hy. rewrite less_lex. apply (sharing_ended cs proj off xs); auto. }
  destruct Hr as (i & x0 & -> & Hx0 & Hs0 & HJ1). wstep. eapply wp_mono; [apply (last_unended_wp proj xs m f off x0 i); auto|]. cbv beta. intros r m' (-> & k & -> & Hik & HJ2).
  wstep. eapply wp_mono; [apply (update_wp xs x0 m f off i k); auto|]. cbv beta. intros r m' (-> & Hr & Hr0 & HPt).
  set (zs := skipn i xs). assert (HLz : length zs = length xs - i) by (unfold zs; now rewrite skipn_length). assert (Hinz : forall z, In z zs -> In z xs). { intros z Hz. rewrite <- (firstn_skipn i xs). apply in_app_iff. now right. }
  assert (HSz : seg m (f + i) zs /\ seg m f (firstn i xs)). { rewrite <- (firstn_skipn i xs) in HS. apply seg_app in HS as [HS1 HS2]. rewrite firstn_length in HS2. replace (Nat.min i (length xs)) with i in HS2 by lia. auto. } destruct HSz as [HSz HSe].
  apply (parted_incl r xs zs) in HPt; auto. replace (f + length xs) with (f + i + length zs) by lia.
  destruct (cache_prefix c o Ho) as (cp & <- & Ecp). destruct (grow c (length cp) nb Ho) as (cq & h & Eg & Hlc). rewrite Ecp in Eg, Hlc. rewrite sect_len in Hlc. rewrite Eg. clear Eg.
  set (bin := cbin cs proj r). assert (HB : forall x, In x zs -> bin x < nb) by (intros; apply cbin_lt). pose proof bin_count_pos as Hbc.
  wstep. eapply wp_mono; [apply (count_strings_wp cs bin zs (f + i) HB (string_bin cs proj r) m); auto; intros; apply string_bin_ok|]. cbv beta. intros v m' [-> ->].
  wstep. eapply wp_mono; [apply (assign_wp cs bin zs (f + i) cp cq)|]. cbv beta. intros v m' [-> ->].
  wstep. apply wp_rd_seq; [lia|]. wstep. replace (f + i + cnt bin zs 0) with (f + i + start bin zs 1) by (rewrite start_S; cbn [start]; lia).
  eapply wp_mono; [apply (place_strings_wp cs bin zs (f + i) m cp cq HB (string_bin cs proj r) 0 zs (start bin zs) m)|].
  { lia. } { intros. apply string_bin_ok. } { split; auto. split; auto. apply only_refl. } { intros p Hp. split; [split; auto; apply start_mono; lia|]. intros; lia. }
  cbv beta. intros v m1 (ys1 & o1 & HS1 & -> & HW1 & HO1 & _).
  wstep. eapply wp_mono; [apply (find_last_bin_wp cs bin zs 1); lia|]. cbv beta. intros lb m' (-> & Hlb & Hemp).
  wstep. eapply wp_mono; [apply (place_chars_wp cs bin zs (f + i) m cp cq HB (char_bin cs proj r) 1 lb ys1 o1 m1); auto|].
  { intros x m' Hx Hd. apply char_bin_ok. change (bin x <> 0). intros E. rewrite E in Hd. destruct Hd; [lia|auto]. }
  cbv beta. intros v m2 (ys2 & o2 & HS2 & -> & HW2 & HD2 & HK2). assert (HO2 : o2 0 = start bin zs 1) by (apply HK2; auto; lia).
  destruct HS2 as (HS2 & HP2 & HOn2).
  assert (Hcnt : forall p, lb + 1 < p < nb -> cnt bin zs p = 0). { intros p Hp. replace p with (p - 1 + 1) by lia. apply Hemp. lia. }
  assert (Hlast : start bin zs (S (lb + 1)) = length zs). { rewrite <- (start_all nb bin zs HB). symmetry. apply start_const; [lia|]. intros p Hp. apply Hcnt. lia. }
  assert (Hdone : forall p, p < nb -> p <> lb + 1 -> o2 p = start bin zs (S p)).
  { intros p Hp Np. destruct (Nat.eq_dec p 0) as [->|]; auto. destruct (Nat.lt_ge_cases p (lb + 1)) as [H|H]; [apply HD2; lia|]. destruct (HW2 p Hp) as [Hb _]. pose proof (start_S bin zs p). rewrite (Hcnt p) in * by lia. lia. }
  assert (HBl : blocked bin zs ys2) by (eapply (placed_blocked nb); eauto).
  wstep. replace (length cp + 1 + lb) with (length cp + (lb + 1)) by lia. apply sect_wr; [lia|].
  replace (sect cp cq nb (fun j => if j =? lb + 1 then Some (f + i + length zs) else Some (f + i + o2 j))) with (sect cp cq nb (fun p => Some (f + i + start bin zs (S p)))).
  2:{ apply sect_ext. intros j Hj. destruct (Nat.eqb_spec j (lb + 1)) as [->|]; [now rewrite Hlast|now rewrite Hdone]. }
  wstep. replace (length cp) with (length cp + 0) at 1 by lia. eapply sect_rd; [lia|reflexivity|].
  assert (HR0 : forall p, p = 0 \/ lb + 1 < p < nb -> sorted lt (region bin zs ys2 p)).
  { intros p [->|Hp]; [|apply region_sorted_empty; auto; lia]. intros a b x y Hab Hx Hy. apply nth_error_In in Hx, Hy. destruct (sreg_in nb bin zs ys2 HB HP2 HBl 0 x Hx). destruct (sreg_in nb bin zs ys2 HB HP2 HBl 0 y Hy).
    rewrite less_lex. rewrite (parted_ended cs proj r zs y x) by auto. apply (swo_irrefl _ lex_swo). }
  assert (HSp : forall p qs, 1 <= p < lb + 2 -> (forall z, In z qs -> In z zs /\ bin z = p) -> sharing cs proj (r + 1) qs).
  { intros p qs Hp HQ. replace (r + 1) with (S r) by lia. eapply (parted_bin cs proj r zs (p - 1)); eauto. intros y Hy. destruct (HQ y Hy). split; auto. change (bin y = S (p - 1)). lia. }
  eapply wp_mono; [apply (sort_string_bins_wp lt (offset_less_than cs proj (r + 1)) (fun f l c o => string_sort_rec cs proj branchless fuel f l (r + 1) c o) bin zs ys2 (f + i) m cp (r + 1) (r + 1 + fuel) 1 (lb + 2)) with (done := fun p => p = 0 \/ lb + 1 < p < nb); auto; try lia|].
  - apply offset_less_swo.
  - intros x y Hx Hy Exy Hb. assert (HQ : sharing cs proj (r + 1) [x; y]). { apply (HSp (bin x)); auto. intros z [<-|[<-|[]]]; auto. }
    pose proof (sharing_size cs proj (r + 1) _ x HQ ltac:(now left)). pose proof (sharing_size cs proj (r + 1) _ y HQ ltac:(right; now left)). rewrite less_lex. apply offset_less_lex; auto.
    destruct HQ as (p & _ & HQ). rewrite (HQ x), (HQ y); auto; [right; now left|now left].
  - intros x Hx. specialize (HN x (Hinz x Hx)). lia.
  - rewrite sect_len. lia.
  - apply sect_firstn.
  - apply sblocks_init; auto.
  - cbv beta. intros c' m3 [(K1 & K2) K3]. rewrite sect_len in K1. split; [|split; [lia|]].
    + apply (sblocks_sorted lt nb bin zs ys2 (f + i) m HB) in K3 as (ws & HSw & [HPw HSo] & HOw); auto.
      * exists (firstn i xs ++ ws). split; [|split; [split|]].
        -- apply seg_app. split; [eapply seg_only; [exact HOw| |exact HSe]; unfold within; rewrite firstn_length; intros; lia|]. rewrite firstn_length. now replace (Nat.min i (length xs)) with i by lia.
        -- rewrite <- (firstn_skipn i xs) at 1. now apply Permutation_app_head.
        -- apply sorted_app. assert (HE : forall e, In e (firstn i xs) -> In e xs /\ size e <= off).
           { intros e He. apply In_nth_error in He as (j & Hj). pose proof (nth_lt _ _ _ Hj) as Hlt. rewrite firstn_length in Hlt. rewrite nth_firstn_lt in Hj by lia. split; [eapply nth_error_In; eauto|]. apply (HJ1 j); auto. lia. }
           split; [|split; auto].
           ++ intros a b x y Hab Hx Hy. apply nth_error_In in Hx, Hy. destruct (HE x Hx), (HE y Hy). rewrite less_lex. apply (sharing_ended cs proj off xs); auto.
           ++ intros x y Hx Hy. unfold le. destruct (HE x Hx). rewrite less_lex. apply (sharing_ended cs proj off xs); auto. apply Hinz. eapply Permutation_in; [symmetry; exact HPw|auto].
        -- eapply only_weaken; [exact HOw|]. unfold within. intros. lia.
      * intros x y Hx Hy Hlt. rewrite less_lex. apply (lt_asym lex lex_swo). eapply (parted_order cs proj r zs); eauto.
      * intros p Hp. destruct (Nat.eq_dec p 0); auto. destruct (Nat.lt_ge_cases p (lb + 2)); [right; lia|left; right; lia].
    + replace (firstn (length cp) c') with (firstn (length cp) (firstn (length cp + nb) c')) by (rewrite firstn_firstn; f_equal; lia). rewrite K2. rewrite firstn_firstn. replace (Nat.min (length cp) (length cp + nb)) with (length cp) by lia. now rewrite sect_firstn_cp.
Qed.

(** * operator> *)
Lemma reverse_string_rec_sorts : forall fuel off, ssorts gt off (off + fuel) (fun f l c o => reverse_string_sort_rec cs proj branchless fuel f l off c o).
Proof.
  induction fuel as [|fuel IH]; intros off xs m f c o HL HSh HN HS Ho.
  { exfalso. destruct xs as [|x xs]; [cbn in HL; lia|]. specialize (HN x (or_introl eq_refl)). pose proof (sharing_size cs proj off (x :: xs) x HSh (or_introl eq_refl)). lia. }
  cbn [reverse_string_sort_rec]. wstep. eapply wp_mono; [apply (skip_ended_wp proj xs m f off); auto|]. cbv beta. intros r m' [-> Hr]. destruct r as [g|].
  2:{ apply wp_ret. split; auto. exists xs. split; auto. split; [|apply only_refl]. split; auto. intros i j x y Hij Hx Hy. apply nth_error_In in Hx, Hy. rewrite gt_lex. apply (sharing_ended cs proj off xs); auto. }
  destruct Hr as (i & x0 & -> & Hx0 & Hs0 & HJ1). wstep. eapply wp_mono; [apply (last_unended_wp proj xs m f off x0 i); auto|]. cbv beta. intros r m' (-> & k & -> & Hik & HJ2).
  wstep. eapply wp_mono; [apply (update_wp xs x0 m f off i k); auto|]. cbv beta. intros r m' (-> & Hr & Hr0 & HPt).
  set (zs := firstn k xs). assert (HLz : length zs = k) by (unfold zs; rewrite firstn_length; lia). assert (Hinz : forall z, In z zs -> In z xs). { intros z Hz. rewrite <- (firstn_skipn k xs). apply in_app_iff. now left. }
  assert (HSz : seg m f zs /\ seg m (f + k) (skipn k xs)). { rewrite <- (firstn_skipn k xs) in HS. apply seg_app in HS as [HS1 HS2]. fold zs in HS2. rewrite HLz in HS2. auto. } destruct HSz as [HSz HSe].
  apply (parted_incl r xs zs) in HPt; auto. rewrite <- HLz at 1.
  destruct (cache_prefix c o Ho) as (cp & <- & Ecp). destruct (grow c (length cp) nb Ho) as (cq & h & Eg & Hlc). rewrite Ecp in Eg, Hlc. rewrite sect_len in Hlc. rewrite Eg. clear Eg.
  set (bin := rbin r). pose proof bin_count_pos as Hbc. assert (Hcb : forall x, cbin cs proj r x <= bin_count cs) by (intros x; pose proof (cbin_lt cs proj r x); lia).
  assert (HB : forall x, In x zs -> bin x < nb) by (intros; unfold bin, rbin; lia).
  wstep. eapply wp_mono; [apply (count_strings_wp cs bin zs f HB (reverse_string_bin cs proj r) m); auto; intros; apply reverse_string_bin_ok|]. cbv beta. intros v m' [-> ->].
  wstep. eapply wp_mono; [apply (assign_wp cs bin zs f cp cq)|]. cbv beta. intros v m' [-> ->].
  wstep. eapply sect_rd; [lia|reflexivity|]. wstep. assert (Hall : start bin zs (S (bin_count cs)) = length zs). { replace (S (bin_count cs)) with nb by lia. apply (start_all nb bin zs HB). }
  replace (f + k) with (f + start bin zs (S (bin_count cs))) by lia. replace (f + start bin zs (S (bin_count cs))) with (f + length zs) at 1 by lia.
  eapply wp_mono; [apply (place_strings_wp cs bin zs f m cp cq HB (reverse_string_bin cs proj r) (bin_count cs) zs (start bin zs) m)|].
  { lia. } { intros. apply reverse_string_bin_ok. } { split; auto. split; auto. apply only_refl. } { intros p Hp. split; [split; auto; apply start_mono; lia|]. intros; lia. }
  cbv beta. intros v m1 (ys1 & o1 & HS1 & -> & HW1 & HO1 & _).
  wstep. eapply wp_mono; [apply (find_last_bin_wp cs bin zs 0); lia|]. cbv beta. intros lb m' (-> & Hlb & Hemp).
  wstep. replace (f + start bin zs (S (bin_count cs))) with (f + length zs) by lia. replace f with (f + start bin zs 0) at 3 by (cbn [start]; lia).
  eapply wp_mono; [apply (place_chars_wp cs bin zs f m cp cq HB (reverse_char_bin cs proj r) 0 lb ys1 o1 m1); auto|].
  { intros x m' Hx Hd. apply reverse_char_bin_ok. intros E. assert (Eb : bin x = bin_count cs) by (unfold bin, rbin; lia). rewrite Eb in Hd. destruct Hd; [lia|auto]. }
  cbv beta. intros v m2 (ys2 & o2 & HS2 & -> & HW2 & HD2 & HK2). assert (HO2 : o2 (bin_count cs) = start bin zs (S (bin_count cs))) by (apply HK2; auto; lia).
  destruct HS2 as (HS2 & HP2 & HOn2).
  assert (Hcnt : forall p, lb < p < bin_count cs -> cnt bin zs p = 0). { intros p Hp. replace p with (p + 0) by lia. apply Hemp. lia. }
  assert (Hlast : start bin zs (S lb) = start bin zs (bin_count cs)). { symmetry. apply start_const; [lia|]. intros p Hp. apply Hcnt. lia. }
  assert (Hdone : forall p, p < nb -> p <> lb -> o2 p = start bin zs (S p)).
  { intros p Hp Np. destruct (Nat.eq_dec p (bin_count cs)) as [->|]; auto. destruct (Nat.lt_ge_cases p lb) as [H|H]; [apply HD2; lia|]. destruct (HW2 p Hp) as [Hb _]. pose proof (start_S bin zs p). rewrite (Hcnt p) in * by lia. lia. }
  assert (HBl : blocked bin zs ys2) by (eapply (placed_blocked nb); eauto).
  wstep. apply sect_wr; [lia|].
  replace (sect cp cq nb (fun j => if j =? lb then Some (f + start bin zs (bin_count cs)) else Some (f + o2 j))) with (sect cp cq nb (fun p => Some (f + start bin zs (S p)))).
  2:{ apply sect_ext. intros j Hj. destruct (Nat.eqb_spec j lb) as [->|]; [now rewrite Hlast|now rewrite Hdone]. }
  assert (HR0 : forall p, lb < p < nb -> sorted gt (region bin zs ys2 p)).
  { intros p Hp. destruct (Nat.eq_dec p (bin_count cs)) as [->|]; [|apply region_sorted_empty; auto; [lia|apply Hcnt; lia]].
    intros a b x y Hab Hx Hy. apply nth_error_In in Hx, Hy. destruct (sreg_in nb bin zs ys2 HB HP2 HBl _ x Hx) as [X1 X2]. destruct (sreg_in nb bin zs ys2 HB HP2 HBl _ y Hy) as [Y1 Y2].
    pose proof (Hcb x). pose proof (Hcb y). rewrite gt_lex. rewrite (parted_ended cs proj r zs y x); auto; try (unfold bin, rbin in X2, Y2; lia). apply (swo_irrefl _ lex_swo). }
  assert (HSp : forall p qs, 0 <= p < lb + 1 -> (forall z, In z qs -> In z zs /\ bin z = p) -> sharing cs proj (r + 1) qs).
  { intros p qs Hp HQ. replace (r + 1) with (S r) by lia. eapply (parted_bin cs proj r zs (bin_count cs - p - 1)); eauto. intros y Hy. destruct (HQ y Hy) as [Q1 Q2]. split; auto. pose proof (Hcb y). unfold bin, rbin in Q2. lia. }
  replace (seq (length cp) (lb + 1)) with (seq (length cp + 0) (lb + 1)) by (f_equal; lia). replace (f + start bin zs 0) with f by (cbn [start]; lia). replace f with (f + start bin zs 0) at 1 by (cbn [start]; lia).
  eapply wp_mono; [apply (sort_string_bins_wp gt (offset_greater_than cs proj (r + 1)) (fun f l c o => reverse_string_sort_rec cs proj branchless fuel f l (r + 1) c o) bin zs ys2 f m cp (r + 1) (r + 1 + fuel) 0 (lb + 1)) with (done := fun p => lb < p < nb); auto; try lia|].
  - apply offset_greater_swo.
  - intros x y Hx Hy Exy Hb. assert (HQ : sharing cs proj (r + 1) [x; y]). { apply (HSp (bin x)); auto. intros z [<-|[<-|[]]]; auto. }
    pose proof (sharing_size cs proj (r + 1) _ x HQ ltac:(now left)). pose proof (sharing_size cs proj (r + 1) _ y HQ ltac:(right; now left)). rewrite gt_lex, offset_greater_less. apply offset_less_lex; auto.
    destruct HQ as (p & _ & HQ). rewrite (HQ x), (HQ y); auto; [right; now left|now left].
  - intros x Hx. specialize (HN x (Hinz x Hx)). lia.
  - rewrite sect_len. lia.
  - apply sect_firstn.
  - apply sblocks_init; auto.
  - cbv beta. intros c' m3 [(K1 & K2) K3]. rewrite sect_len in K1. split; [|split; [lia|]].
    + apply (sblocks_sorted gt nb bin zs ys2 f m HB) in K3 as (ws & HSw & [HPw HSo] & HOw); auto.
      * assert (HLw : length ws = k) by (now rewrite <- (Permutation_length HPw)). exists (ws ++ skipn k xs). split; [|split; [split|]].
        -- apply seg_app. split; auto. rewrite HLw. eapply seg_only; [exact HOw| |exact HSe]. unfold within. intros; lia.
        -- rewrite <- (firstn_skipn k xs) at 1. now apply Permutation_app_tail.
        -- apply sorted_app. assert (HE : forall e, In e (skipn k xs) -> In e xs /\ size e <= off).
           { intros e He. apply In_nth_error in He as (j & Hj). rewrite nth_skipn in Hj. split; [eapply nth_error_In; eauto|]. apply (HJ2 (k + j)); auto. lia. }
           split; auto. split.
           ++ intros a b x y Hab Hx Hy. apply nth_error_In in Hx, Hy. destruct (HE x Hx), (HE y Hy). rewrite gt_lex. apply (sharing_ended cs proj off xs); auto.
           ++ intros x y Hx Hy. unfold le. destruct (HE y Hy). rewrite gt_lex. apply (sharing_ended cs proj off xs); auto. apply Hinz. eapply Permutation_in; [symmetry; exact HPw|auto].
        -- eapply only_weaken; [exact HOw|]. unfold within. intros. lia.
      * intros x y Hx Hy Hlt. rewrite gt_lex. apply (lt_asym lex lex_swo). eapply (parted_order cs proj r zs); eauto. pose proof (Hcb x). pose proof (Hcb y). unfold bin, rbin in Hlt. lia.
      * intros p Hp. destruct (Nat.lt_ge_cases p (lb + 1)); [right; lia|left; lia].
    + replace (firstn (length cp) c') with (firstn (length cp) (firstn (length cp + nb) c')) by (rewrite firstn_firstn; f_equal; lia). rewrite K2. rewrite firstn_firstn. replace (Nat.min (length cp) (length cp + nb)) with (length cp) by lia. now rewrite sect_firstn_cp.
Qed.

Lemma sharing_0 : forall xs, sharing cs proj 0 xs.
Proof. intros xs. exists []. split; auto. Qed.

Theorem string_spread_sorts : sorts lt (string_spread_sorter cs proj branchless).
Proof.
  intros pre xs post. apply (wp_run_sorts (string_less cs) proj). unfold string_spread_sorter. replace (length pre + length xs - length pre) with (length xs) by lia. destruct (Nat.ltb_spec (length xs) min_sort_size) as [H|H].
  - eapply (runs_seg (is_sorting_of lt) (pdq_sorter (string_less cs) proj true branchless)); [exact (pdq_sorts (string_less cs) proj (string_less_swo cs) branchless)| |apply seg_intro; reflexivity|reflexivity|].
    + intros a b [E _]. now rewrite (Permutation_length E).
    + intros ys m' HR HS HO. exists ys. auto.
  - wstep. eapply wp_mono; [apply (longest_wp proj xs); apply seg_intro; reflexivity|]. cbv beta. intros n m' [-> Hn]. wstep.
    eapply wp_mono; [apply (string_rec_sorts (S n) 0 xs); auto using sharing_0|].
    + unfold min_sort_size in H. lia.
    + intros x Hx. specialize (Hn x Hx). lia.
    + apply seg_intro. reflexivity.
    + cbv beta. intros c m' (HQ & _). apply wp_ret. exact HQ.
Qed.
Theorem reverse_string_spread_sorts : sorts gt (reverse_string_spread_sorter cs proj branchless).
Proof.
  intros pre xs post. apply (wp_run_sorts (string_greater cs) proj). unfold reverse_string_spread_sorter. replace (length pre + length xs - length pre) with (length xs) by lia. destruct (Nat.ltb_spec (length xs) min_sort_size) as [H|H].
  - eapply (runs_seg (is_sorting_of gt) (pdq_sorter (string_greater cs) proj true branchless)); [exact (pdq_sorts (string_greater cs) proj (string_greater_swo cs) branchless)| |apply seg_intro; reflexivity|reflexivity|].
    + intros a b [E _]. now rewrite (Permutation_length E).
    + intros ys m' HR HS HO. exists ys. auto.
  - wstep. eapply wp_mono; [apply (longest_wp proj xs); apply seg_intro; reflexivity|]. cbv beta. intros n m' [-> Hn]. wstep.
    eapply wp_mono; [apply (reverse_string_rec_sorts (S n) 0 xs); auto using sharing_0|].
    + unfold min_sort_size in H. lia.
    + intros x Hx. specialize (Hn x Hx). lia.
    + apply seg_intro. reflexivity.
    + cbv beta. intros c m' (HQ & _). apply wp_ret. exact HQ.
Qed.
End Sort.
