(** wiki_sort: regions of the memory, and the searches. *)
From Coq Require Import List Arith Lia Permutation Bool.
From Verif Require Import Spec.Order Lang.Mem Spec.Sorts Proofs.Wp Proofs.OrderLib Model.Rotate Proofs.RotateGcd Proofs.Search Model.Search Proofs.HalfMerge Proofs.Regions
  Model.Insertion Proofs.Insertion Proofs.MergeSort Model.Spin Proofs.SpinMerge Model.Wiki.
Import ListNotations.
Local Arguments nth_error : simpl never.
Local Arguments upd : simpl never.
Local Arguments Nat.leb : simpl never.
Local Arguments Nat.ltb : simpl never.
Local Arguments Nat.div : simpl never.

(** * Regions *)
Section Regions.
Context {A : Type}.
Implicit Types (m : mem A) (xs ys : list A).

Lemma seg_replace : forall m f xs, seg m f xs -> exists pre post, m = pre ++ map Val xs ++ post /\ length pre = f /\
  forall ys, length ys = length xs -> seg (pre ++ map Val ys ++ post) f ys /\ only (within f (length xs)) m (pre ++ map Val ys ++ post).
Proof.
  intros m f xs HS. apply seg_decomp in HS as (pre & post & -> & <-). exists pre, post. cj; auto. intros ys HL. split; [now apply seg_intro|].
  split; [rewrite !app_length, !map_length; lia|]. intros i Hi. unfold within in Hi.
  destruct (Nat.lt_ge_cases i (length pre)). { now rewrite !nth_error_app1. }
  rewrite !(nth_error_app2 pre) by auto. rewrite !nth_error_app2 by (rewrite map_length; lia). now rewrite !map_length, HL.
Qed.

Lemma seg_at : forall m f xs i x, seg m f xs -> nth_error xs i = Some x -> forall k, k = f + i -> nth_error m k = Some (Val x).
Proof. intros; subst; eapply seg_get; eauto. Qed.

Lemma rotate_region : forall triv p r m f mi l (Q : nat -> mem A -> Prop), seg m f (p ++ r) -> mi = f + length p -> l = mi + length r ->
  (forall m', seg m' f (r ++ p) -> only (within f (length p + length r)) m m' -> Q (f + length r) m') -> wp (rotate RandomAccess triv f mi l) Q m.
Proof.
  intros triv p r m f mi l Q HS E1 E2 HQ. apply seg_replace in HS as (pre & post & -> & HL & HR).
  destruct (HR (r ++ p)) as [S1 O1]; [rewrite !app_length; lia|]. eapply rotate_wp; eauto. apply HQ; auto. rewrite <- app_length. auto.
Qed.

(** A swap of two elements. *)
Lemma swap_region : forall m i j a b (Q : unit -> mem A -> Prop), nth_error m i = Some (Val a) -> nth_error m j = Some (Val b) ->
  (forall m', nth_error m' i = Some (Val b) -> nth_error m' j = Some (Val a) -> only (fun k => k = i \/ k = j) m m' -> Q tt m') -> wp (swap i j) Q m.
Proof.
  intros m i j a b Q Hi Hj HQ. eapply wp_swap; eauto. apply HQ.
  - destruct (Nat.eq_dec i j) as [->|]. { rewrite nth_upd_eq by (rewrite upd_length; now apply nth_lt in Hj). congruence. }
    rewrite nth_upd_ne by auto. apply nth_upd_eq. now apply nth_lt in Hi.
  - apply nth_upd_eq. rewrite upd_length. now apply nth_lt in Hj.
  - split; [now rewrite !upd_length|]. intros k Hk. rewrite !nth_upd_ne; auto.
Qed.

(** Swapping two regions that are apart. *)
Lemma swap_ranges_region : forall xs ys m f l g (Q : nat -> mem A -> Prop), seg m f xs -> seg m g ys -> l = f + length xs -> length ys = length xs ->
  apart f (length xs) g (length xs) ->
  (forall m', seg m' f ys -> seg m' g xs -> only (fun i => within f (length xs) i \/ within g (length xs) i) m m' -> Q (g + length xs) m') ->
  wp (swap_ranges f l g) Q m.
Proof.
  intros xs ys m f l g Q S1 S2 -> HL HA HQ. unfold swap_ranges.
  apply wp_loop' with
    (I := fun '(f1, g1) m1 => exists a b c d, xs = a ++ b /\ ys = c ++ d /\ length a = length c /\ f1 = f + length a /\ g1 = g + length a /\
       seg m1 f (c ++ b) /\ seg m1 g (a ++ d) /\ only (fun i => within f (length xs) i \/ within g (length xs) i) m m1)
    (mu := fun '(f1, _) => f + length xs - f1).
  - exists [], xs, [], ys. simpl. rewrite !Nat.add_0_r. cj; auto. apply only_refl.
  - lia.
  - intros [f1 g1] m1 (a & b & c & d & -> & -> & HC & -> & -> & T1 & T2 & HO). rewrite !app_length in *.
    destruct (Nat.eqb_spec (f + length a) (f + (length a + length b))) as [E|E].
    + apply wp_ret. destruct b; [|simpl in E; lia]. destruct d; [|simpl in HL; lia]. rewrite !app_nil_r in *. replace (length a) with (length a + length (@nil A)) by (simpl; lia). auto.
    + destruct b as [|x b]; [simpl in E; lia|]. destruct d as [|y d]; [simpl in HL; lia|].
      pose proof T1 as T1'. pose proof T2 as T2'.
      apply seg_app in T1 as [T1 T1b]. apply seg_cons in T1b as [X1 T1b]. apply seg_app in T2 as [T2 T2b]. apply seg_cons in T2b as [Y1 T2b].
      rewrite <- HC in X1, T1b. simpl length in *.
      apply wp_bind. eapply swap_region; [exact X1|exact Y1|]. intros m2 V1 V2 O2. apply wp_ret. split; [|lia].
      exists (a ++ [x]), b, (c ++ [y]), d. rewrite <- !app_assoc, !app_length. simpl. cj; auto; try lia.
      * apply seg_app. split; [eapply seg_only; [exact O2| |exact T1]; win|]. rewrite <- HC. apply seg_cons. split; auto. eapply seg_only; [exact O2| |exact T1b]; win.
      * apply seg_app. split; [eapply seg_only; [exact O2| |exact T2]; win|]. apply seg_cons. split; auto. eapply seg_only; [exact O2| |exact T2b]; win.
      * eapply only_trans; [exact HO|]. eapply only_weaken; [exact O2|]. win.
Qed.

(** Swapping a region with itself. *)
Lemma swap_ranges_self : forall xs m f l g (Q : nat -> mem A -> Prop), seg m f xs -> l = f + length xs -> g = f -> Q (f + length xs) m -> wp (swap_ranges f l g) Q m.
Proof.
  intros xs m f l g Q S1 -> -> HQ. unfold swap_ranges.
  apply wp_loop' with (I := fun '(f1, g1) m1 => m1 = m /\ f1 = g1 /\ f <= f1 <= f + length xs) (mu := fun '(f1, _) => f + length xs - f1).
  - cj; auto; lia.
  - lia.
  - intros [f1 g1] m1 (-> & <- & HF). destruct (Nat.eqb_spec f1 (f + length xs)) as [->|E]. { now apply wp_ret. }
    apply wp_bind. destruct (nth_some _ xs (f1 - f)) as (x & Hx); [lia|]. eapply seg_get in Hx; [|exact S1]. replace (f + (f1 - f)) with f1 in Hx by lia.
    eapply wp_swap; [exact Hx|exact Hx|]. apply wp_ret. split; [|lia]. cj; try lia. rewrite upd_upd. now apply upd_id.
Qed.
End Regions.

(** * The searches *)
Section Find.
Context {A T : Type} (comp : T -> T -> bool) (proj : A -> T).
Notation lt := (by_proj comp proj).
Implicit Types (m : mem A) (xs : list A).

(** The elements before [c] satisfy [P], the others do not. *)
Definition cutp (P : A -> bool) xs (c : nat) : Prop := c <= length xs /\ forall i x, nth_error xs i = Some x -> P x = (i <? c).

Lemma cutp_parts : forall P xs c, cutp P xs c -> (forall x, In x (firstn c xs) -> P x = true) /\ (forall x, In x (skipn c xs) -> P x = false).
Proof.
  intros P xs c [HL H]. split; intros x Hx; apply In_nth_error in Hx as (i & Hi).
  - pose proof (nth_lt _ _ _ Hi) as Hl. rewrite firstn_length in Hl. rewrite nth_firstn_lt in Hi by lia. rewrite (H _ _ Hi). apply Nat.ltb_lt. lia.
  - rewrite nth_skipn in Hi. rewrite (H _ _ Hi). apply Nat.ltb_ge. lia.
Qed.
Lemma cutp_intro : forall P u v, (forall x, In x u -> P x = true) -> (forall x, In x v -> P x = false) -> cutp P (u ++ v) (length u).
Proof.
  intros P u v HU HV. split; [rewrite app_length; lia|]. intros i x Hx. destruct (Nat.lt_ge_cases i (length u)) as [Hi|Hi].
  - rewrite nth_error_app1 in Hx by auto. rewrite HU by (eapply nth_error_In; eauto). symmetry. now apply Nat.ltb_lt.
  - rewrite nth_error_app2 in Hx by auto. rewrite HV by (eapply nth_error_In; eauto). symmetry. now apply Nat.ltb_ge.
Qed.
Lemma cutp_unique : forall P xs c d, cutp P xs c -> cutp P xs d -> c = d.
Proof.
  intros P xs c d [HC H1] [HD H2]. destruct (Nat.lt_trichotomy c d) as [H|[H|H]]; auto; exfalso.
  - destruct (nth_some _ xs c) as (x & Hx); [lia|]. pose proof (H1 _ _ Hx) as E1. rewrite (H2 _ _ Hx) in E1. rewrite Nat.ltb_irrefl in E1. apply Nat.ltb_ge in E1. lia.
  - destruct (nth_some _ xs d) as (x & Hx); [lia|]. pose proof (H2 _ _ Hx) as E1. rewrite (H1 _ _ Hx) in E1. rewrite Nat.ltb_irrefl in E1. apply Nat.ltb_ge in E1. lia.
Qed.

Lemma search_region : forall (cmp : T -> T -> bool) xs m f a b first n v c (Q : nat -> mem A -> Prop), seg m f xs -> cutp (fun x => cmp (proj x) v) xs c ->
  a <= b -> b <= length xs -> first = f + a -> n = b - a -> Q (f + Nat.max a (Nat.min b c)) m -> wp (lower_bound_n cmp proj first n v) Q m.
Proof.
  intros cmp xs m f a b first n v c Q HS [HC HP] HA HB -> -> HQ. unfold lower_bound_n.
  apply wp_loop' with (I := fun '(first, size) m1 => m1 = m /\ exists a', first = f + a' /\ a <= a' /\ a' + size <= b /\ Nat.max a (Nat.min b c) = Nat.max a' (Nat.min (a' + size) c))
    (mu := fun '(_, size) => size).
  - split; auto. exists a. cj; lia.
  - lia.
  - intros [fi size] m1 (-> & a' & -> & H1 & H2 & H3). destruct (Nat.ltb_spec 0 size).
    2:{ apply wp_ret. replace (f + a') with (f + Nat.max a (Nat.min b c)) by lia. auto. }
    assert (size / 2 < size) by (apply Nat.div_lt; lia). set (h := size / 2) in *.
    destruct (nth_some _ xs (a' + h)) as (x & Hx); [lia|]. apply wp_bind. eapply wp_get; [eapply seg_at; [exact HS|exact Hx|lia]|].
    rewrite (HP _ _ Hx). destruct (Nat.ltb_spec (a' + h) c); apply wp_ret; (split; [|lia]); (split; [auto|]).
    + exists (S (a' + h)). cj; lia.
    + exists a'. cj; lia.
Qed.

Lemma nth_range : forall m f xs k, seg m f xs -> k < length xs -> exists x, nth_error xs k = Some x /\ nth_error m (f + k) = Some (Val x).
Proof. intros m f xs k HS Hk. destruct (nth_some _ xs k Hk) as (x & Hx). exists x. split; auto. eapply seg_get; eauto. Qed.

Section Forward.
Variables (xs : list A) (m : mem A) (f l : nat) (v : T) (unique c : nat) (Q : nat -> mem A -> Prop).
Hypothesis HS : seg m f xs.
Hypothesis HL : l = f + length xs.
Hypothesis HU : 0 < unique.
Hypothesis HQ : Q (f + c) m.

Lemma skip_bounds : 0 < length xs -> let skip := Nat.max ((l - f) / unique) 1 in 1 <= skip <= length xs.
Proof. intros HN. subst l. replace (f + length xs - f) with (length xs) by lia. assert (length xs / unique <= length xs) by (apply Nat.div_le_upper_bound; nia). lia. Qed.

Lemma find_first_forward_region : cutp (fun x => comp (proj x) v) xs c -> wp (find_first_forward comp proj f l v unique) Q m.
Proof.
  intros HC. unfold find_first_forward. pose proof skip_bounds as SK. pose proof (proj1 HC). subst l. replace (f + length xs - f) with (length xs) in * by lia.
  destruct (Nat.eqb_spec (length xs) 0). { apply wp_ret. replace f with (f + c) by lia. auto. }
  destruct (Nat.eqb_spec unique 0); [lia|]. cbv zeta in *. set (skip := Nat.max (length xs / unique) 1) in *. specialize (SK ltac:(lia)).
  apply wp_loop' with (I := fun index m1 => m1 = m /\ exists k, index = f + k /\ skip <= k <= length xs /\ k <= c + skip) (mu := fun index => f + length xs - index).
  - split; auto. exists skip. lia.
  - lia.
  - intros index m1 (-> & k & -> & HK & HK2). apply wp_bind. destruct (nth_range m f xs (k - 1) HS) as (x & Hx & Hg); [lia|].
    eapply wp_get; [replace (f + k - 1) with (f + (k - 1)) by lia; exact Hg|]. rewrite (proj2 HC _ _ Hx). destruct (Nat.ltb_spec (k - 1) c).
    + destruct (Nat.leb_spec (f + length xs - skip) (f + k)).
      * apply wp_bind. eapply search_region with (a := k) (b := length xs); [exact HS|exact HC|lia..|]. apply wp_ret. replace (f + Nat.max k (Nat.min (length xs) c)) with (f + c) by lia. auto.
      * apply wp_ret. split; [|lia]. split; auto. exists (k + skip). lia.
    + apply wp_bind. eapply search_region with (a := k - skip) (b := k); [exact HS|exact HC|lia..|]. apply wp_ret. replace (f + Nat.max (k - skip) (Nat.min k c)) with (f + c) by lia. auto.
Qed.

Lemma find_last_forward_region : cutp (fun x => negb (comp v (proj x))) xs c -> wp (find_last_forward comp proj f l v unique) Q m.
Proof.
  intros HC. unfold find_last_forward. pose proof skip_bounds as SK. pose proof (proj1 HC). subst l. replace (f + length xs - f) with (length xs) in * by lia.
  destruct (Nat.eqb_spec (length xs) 0). { apply wp_ret. replace f with (f + c) by lia. auto. }
  destruct (Nat.eqb_spec unique 0); [lia|]. cbv zeta in *. set (skip := Nat.max (length xs / unique) 1) in *. specialize (SK ltac:(lia)).
  apply wp_loop' with (I := fun index m1 => m1 = m /\ exists k, index = f + k /\ skip <= k <= length xs /\ k <= c + skip) (mu := fun index => f + length xs - index).
  - split; auto. exists skip. lia.
  - lia.
  - intros index m1 (-> & k & -> & HK & HK2). apply wp_bind. destruct (nth_range m f xs (k - 1) HS) as (x & Hx & Hg); [lia|].
    eapply wp_get; [replace (f + k - 1) with (f + (k - 1)) by lia; exact Hg|]. rewrite (proj2 HC _ _ Hx). destruct (Nat.ltb_spec (k - 1) c).
    + destruct (Nat.leb_spec (f + length xs - skip) (f + k)).
      * apply wp_bind. eapply search_region with (a := k) (b := length xs); [exact HS|exact HC|lia..|]. apply wp_ret. replace (f + Nat.max k (Nat.min (length xs) c)) with (f + c) by lia. auto.
      * apply wp_ret. split; [|lia]. split; auto. exists (k + skip). lia.
    + apply wp_bind. eapply search_region with (a := k - skip) (b := k); [exact HS|exact HC|lia..|]. apply wp_ret. replace (f + Nat.max (k - skip) (Nat.min k c)) with (f + c) by lia. auto.
Qed.

Lemma find_first_backward_region : cutp (fun x => comp (proj x) v) xs c -> wp (find_first_backward comp proj f l v unique) Q m.
Proof.
  intros HC. unfold find_first_backward. pose proof skip_bounds as SK. pose proof (proj1 HC). subst l. replace (f + length xs - f) with (length xs) in * by lia.
  destruct (Nat.eqb_spec (length xs) 0). { apply wp_ret. replace f with (f + c) by lia. auto. }
  destruct (Nat.eqb_spec unique 0); [lia|]. cbv zeta in *. set (skip := Nat.max (length xs / unique) 1) in *. specialize (SK ltac:(lia)).
  apply wp_loop' with (I := fun index m1 => m1 = m /\ exists k, index = f + k /\ k + skip <= length xs /\ c <= k + skip) (mu := fun index => index - f).
  - split; auto. exists (length xs - skip). lia.
  - lia.
  - intros index m1 (-> & k & -> & HK & HK2). apply wp_bind. destruct (Nat.ltb_spec f (f + k)).
    + apply wp_bind. destruct (nth_range m f xs (k - 1) HS) as (x & Hx & Hg); [lia|].
      eapply wp_get; [replace (f + k - 1) with (f + (k - 1)) by lia; exact Hg|]. apply wp_ret. rewrite (proj2 HC _ _ Hx). destruct (Nat.ltb_spec (k - 1) c); simpl.
      * apply wp_bind. eapply search_region with (a := k) (b := k + skip); [exact HS|exact HC|lia..|]. apply wp_ret. replace (f + Nat.max k (Nat.min (k + skip) c)) with (f + c) by lia. auto.
      * destruct (Nat.ltb_spec (f + k) (f + skip)).
        -- apply wp_bind. eapply search_region with (a := 0) (b := k); [exact HS|exact HC|lia..|]. apply wp_ret. replace (f + Nat.max 0 (Nat.min k c)) with (f + c) by lia. auto.
        -- apply wp_ret. split; [|lia]. split; auto. exists (k - skip). lia.
    + apply wp_ret. apply wp_bind. eapply search_region with (a := k) (b := k + skip); [exact HS|exact HC|lia..|]. apply wp_ret.
      replace (f + Nat.max k (Nat.min (k + skip) c)) with (f + c) by lia. auto.
Qed.

Lemma find_last_backward_region : cutp (fun x => negb (comp v (proj x))) xs c -> wp (find_last_backward comp proj f l v unique) Q m.
Proof.
  intros HC. unfold find_last_backward. pose proof skip_bounds as SK. pose proof (proj1 HC). subst l. replace (f + length xs - f) with (length xs) in * by lia.
  destruct (Nat.eqb_spec (length xs) 0). { apply wp_ret. replace f with (f + c) by lia. auto. }
  destruct (Nat.eqb_spec unique 0); [lia|]. cbv zeta in *. set (skip := Nat.max (length xs / unique) 1) in *. specialize (SK ltac:(lia)).
  apply wp_loop' with (I := fun index m1 => m1 = m /\ exists k, index = f + k /\ k + skip <= length xs /\ c <= k + skip) (mu := fun index => index - f).
  - split; auto. exists (length xs - skip). lia.
  - lia.
  - intros index m1 (-> & k & -> & HK & HK2). apply wp_bind. destruct (Nat.ltb_spec f (f + k)).
    + apply wp_bind. destruct (nth_range m f xs (k - 1) HS) as (x & Hx & Hg); [lia|].
      eapply wp_get; [replace (f + k - 1) with (f + (k - 1)) by lia; exact Hg|]. apply wp_ret. pose proof (proj2 HC _ _ Hx) as E. apply (f_equal negb) in E.
      rewrite negb_involutive in E. rewrite E. destruct (Nat.ltb_spec (k - 1) c); simpl.
      * apply wp_bind. eapply search_region with (a := k) (b := k + skip); [exact HS|exact HC|lia..|]. apply wp_ret. replace (f + Nat.max k (Nat.min (k + skip) c)) with (f + c) by lia. auto.
      * destruct (Nat.ltb_spec (f + k) (f + skip)).
        -- apply wp_bind. eapply search_region with (a := 0) (b := k); [exact HS|exact HC|lia..|]. apply wp_ret. replace (f + Nat.max 0 (Nat.min k c)) with (f + c) by lia. auto.
        -- apply wp_ret. split; [|lia]. split; auto. exists (k - skip). lia.
    + apply wp_ret. apply wp_bind. eapply search_region with (a := k) (b := k + skip); [exact HS|exact HC|lia..|]. apply wp_ret.
      replace (f + Nat.max k (Nat.min (k + skip) c)) with (f + c) by lia. auto.
Qed.
End Forward.

Lemma lower_bound_region : forall u v m f l w (Q : nat -> mem A -> Prop), seg m f (u ++ v) -> l = f + length (u ++ v) -> (forall x, In x u -> comp (proj x) w = true) ->
  (forall x, In x v -> comp (proj x) w = false) -> Q (f + length u) m -> wp (lower_bound comp proj f l w) Q m.
Proof.
  intros u v m f l w Q HS -> HU HV HQ. unfold lower_bound. eapply search_region with (a := 0) (b := length (u ++ v)) (c := length u); [exact HS|now apply cutp_intro|lia..|].
  rewrite app_length. replace (Nat.max 0 (Nat.min (length u + length v) (length u))) with (length u) by lia. auto.
Qed.
Lemma upper_bound_region : forall u v m f l w (Q : nat -> mem A -> Prop), seg m f (u ++ v) -> l = f + length (u ++ v) -> (forall x, In x u -> comp w (proj x) = false) ->
  (forall x, In x v -> comp w (proj x) = true) -> Q (f + length u) m -> wp (upper_bound comp proj f l w) Q m.
Proof.
  intros u v m f l w Q HS -> HU HV HQ. unfold upper_bound. eapply search_region with (a := 0) (b := length (u ++ v)) (c := length u); [exact HS| |lia..|].
  - unfold not_fn_flip. apply cutp_intro; intros x Hx; [rewrite HU|rewrite HV]; auto.
  - rewrite app_length. replace (Nat.max 0 (Nat.min (length u + length v) (length u))) with (length u) by lia. auto.
Qed.

(** Where a value goes in a sorted sequence. *)
Lemma split_lower : strict_weak_order lt -> forall xs w, sorted lt xs -> exists u v, xs = u ++ v /\ (forall x, In x u -> lt x w = true) /\ (forall x, In x v -> lt x w = false).
Proof.
  intros HW. induction xs as [|a xs IH]; intros w HS.
  - exists [], []. cj; auto; intros x [].
  - apply sorted_cons in HS as [H1 H2]; auto. destruct (lt a w) eqn:E.
    + destruct (IH w H2) as (u & v & -> & HU & HV). exists (a :: u), v. cj; auto. intros x [->|Hx]; auto.
    + exists [], (a :: xs). cj; auto; try (now intros x []). intros x [->|Hx]; auto. destruct (lt x w) eqn:E2; auto. exfalso.
      assert (lt a w = true); [|congruence]. eapply le_lt_trans; eauto.
Qed.
Lemma split_upper : strict_weak_order lt -> forall xs w, sorted lt xs -> exists u v, xs = u ++ v /\ (forall x, In x u -> lt w x = false) /\ (forall x, In x v -> lt w x = true).
Proof.
  intros HW. induction xs as [|a xs IH]; intros w HS.
  - exists [], []. cj; auto; intros x [].
  - apply sorted_cons in HS as [H1 H2]; auto. destruct (lt w a) eqn:E.
    + exists [], (a :: xs). cj; auto; try (now intros x []). intros x [->|Hx]; auto. eapply lt_le_trans; eauto.
    + destruct (IH w H2) as (u & v & -> & HU & HV). exists (a :: u), v. cj; auto. intros x [->|Hx]; auto.
Qed.

Lemma comp_at_wp : forall m i j x y (Q : bool -> mem A -> Prop), nth_error m i = Some (Val x) -> nth_error m j = Some (Val y) -> Q (lt x y) m -> wp (comp_at comp proj i j) Q m.
Proof. intros. unfold comp_at. apply wp_bind. eapply wp_get; eauto. apply wp_bind. eapply wp_get; eauto. Qed.
End Find.
