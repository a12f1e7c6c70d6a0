(** The other parts of spinsort: runs, reversal, insertion of a sorted part. *)
From Coq Require Import List Arith Lia Permutation Bool.
From Verif Require Import Spec.Order Lang.Mem Spec.Sorts Proofs.Wp Proofs.OrderLib Model.Rotate Model.Indirect Proofs.Indirect Model.Search Proofs.Search Proofs.HalfMerge Proofs.Regions
  Model.Insertion Proofs.Insertion Model.Select Proofs.Select Model.Merge Model.Spin Proofs.SpinMerge Proofs.SpinHalf.
Import ListNotations.
Local Arguments nth_error : simpl never.
Local Arguments upd : simpl never.
Local Arguments Nat.leb : simpl never.
Local Arguments Nat.ltb : simpl never.
Local Arguments Nat.div : simpl never.

Section Insert.
Context {A T : Type} (comp : T -> T -> bool) (proj : A -> T).
Local Notation lt := (by_proj comp proj).
Implicit Types (m : mem A).

(** Consecutive elements. *)
Definition steps (R : A -> A -> Prop) (l : list A) : Prop := forall i x y, nth_error l i = Some x -> nth_error l (S i) = Some y -> R x y.

Lemma is_sorted_until_wp : forall c m f xs l (Q : nat -> mem A -> Prop), seg m f xs -> xs <> [] -> l = f + length xs ->
  (forall p s, xs = p ++ s -> p <> [] -> steps (fun x y => c (proj y) (proj x) = false) p -> Q (f + length p) m) ->
  wp (is_sorted_until proj c f l) Q m.
Proof.
  intros c m f xs l Q HS HN -> HQ. unfold is_sorted_until.
  assert (0 < length xs) by (destruct xs; [congruence|simpl; lia]).
  destruct (Nat.eqb_spec f (f + length xs)); [lia|].
  apply wp_loop' with
    (I := fun '(f1, n1) m1 => m1 = m /\ f1 = n1 /\ exists k, f1 = f + k /\ k < length xs /\ steps (fun x y => c (proj y) (proj x) = false) (firstn (S k) xs))
    (mu := fun '(f1, _) => f + length xs - f1).
  - cj; auto. exists 0. cj; auto. intros i x y Hx Hy. apply nth_lt in Hy. rewrite firstn_length in Hy. lia.
  - lia.
  - intros [f1 n1] m1 (-> & <- & k & -> & Hk & HSt). destruct (Nat.eqb_spec (S (f + k)) (f + length xs)) as [E|E].
    + apply wp_ret. apply (HQ xs []); auto. { now rewrite app_nil_r. } rewrite firstn_all2 in HSt by lia. auto.
    + destruct (nth_some _ xs (S k)) as (y & Hy); [lia|]. destruct (nth_some _ xs k) as (x & Hx); [lia|].
      apply wp_bind. eapply wp_get. { replace (S (f + k)) with (f + S k) by lia. eapply seg_get; eauto. }
      apply wp_bind. eapply wp_get. { eapply seg_get; eauto. }
      destruct (c (proj y) (proj x)) eqn:EC.
      * apply wp_ret. replace (S (f + k)) with (f + length (firstn (S k) xs)) by (rewrite firstn_length; lia).
        apply (HQ _ (skipn (S k) xs)); auto. { now rewrite firstn_skipn. } intros E0. apply (f_equal (@length A)) in E0. rewrite firstn_length in E0. cbn [length] in E0. lia.
      * apply wp_ret. split; [|lia]. cj; auto. exists (S k). cj; auto; try lia.
        intros i u v Hu Hv. assert (i <= k). { apply nth_lt in Hv. rewrite firstn_length in Hv. lia. }
        rewrite nth_firstn_lt in Hu by lia. rewrite nth_firstn_lt in Hv by lia.
        destruct (Nat.eq_dec i k) as [->|]; [congruence|]. apply (HSt i); rewrite nth_firstn_lt by lia; auto.
Qed.

Lemma wp_swap_region : forall p x q y t m f i j (Q : unit -> mem A -> Prop), seg m f (p ++ x :: q ++ y :: t) -> i = f + length p -> j = f + length p + S (length q) ->
  (forall m', seg m' f (p ++ y :: q ++ x :: t) -> only (within f (length (p ++ x :: q ++ y :: t))) m m' -> Q tt m') -> wp (swap i j) Q m.
Proof.
  intros p x q y t m f i j Q HS -> -> HQ. apply seg_decomp in HS as (pre & post & -> & <-).
  assert (E : forall u v, pre ++ map Val (p ++ u :: q ++ v :: t) ++ post = (pre ++ map Val p) ++ Val u :: map Val q ++ Val v :: map Val t ++ post) by (intros; solve_app).
  rewrite E. apply wp_swap_at; [now rewrite app_length, map_length|rewrite app_length, !map_length; lia|].
  rewrite <- !E. apply HQ.
  - now apply seg_intro.
  - split; [rewrite !app_length, !map_length, !app_length; simpl; rewrite !app_length; simpl; lia|]. intros k Hk. unfold within in Hk.
    destruct (Nat.lt_ge_cases k (length pre)). { now rewrite !nth_error_app1. }
    rewrite !(nth_error_app2 pre) by auto. rewrite !nth_error_app2; rewrite !map_length, !app_length in *; simpl in *; rewrite !app_length in *; simpl in *; [f_equal; lia|lia|lia].
Qed.

Lemma swap_ranges_reverse_wp : forall xs m f mid l (Q : unit -> mem A -> Prop), seg m f xs -> l = f + length xs -> mid = f + length xs / 2 ->
  (forall m', seg m' f (rev xs) -> only (within f (length xs)) m m' -> Q tt m') -> wp (swap_ranges_reverse f mid l) Q m.
Proof.
  intros xs m f mid l Q HS -> -> HQ. unfold swap_ranges_reverse.
  assert (HD : 2 * (length xs / 2) <= length xs < 2 * (length xs / 2) + 2). { pose proof (Nat.div_mod (length xs) 2 ltac:(lia)). pose proof (Nat.mod_upper_bound (length xs) 2 ltac:(lia)). lia. }
  set (h := length xs / 2) in *. clearbody h.
  apply wp_loop' with
    (I := fun '(f1, l1) m1 => exists a c b, xs = a ++ c ++ b /\ length b = length a /\ f1 = f + length a /\ l1 = f + length xs - length a /\ length a <= h /\
       only (within f (length xs)) m m1 /\ seg m1 f (rev b ++ c ++ rev a))
    (mu := fun '(f1, _) => f + h - f1).
  - exists [], xs, []. cbn [rev app length]. rewrite !app_nil_r. cj; auto; try lia. apply only_refl.
  - lia.
  - intros [f1 l1] m1 (a & c & b & EX & EB & -> & -> & Hk & HO & HSG). assert (HLX : length xs = length a + length c + length b) by (rewrite EX, !app_length; lia).
    destruct (Nat.eqb_spec (f + length a) (f + h)) as [E|E].
    + apply wp_ret. apply HQ; auto. replace (rev xs) with (rev b ++ c ++ rev a); auto. rewrite EX, !rev_app_distr, <- !app_assoc.
      replace (rev c) with c; [reflexivity|]. destruct c as [|x [|]]; auto. simpl in HLX. lia.
    + destruct c as [|x c]; [simpl in *; lia|]. destruct (last_split _ c) as (c' & y & ->). { intros ->. simpl in *. lia. }
      apply wp_bind. eapply wp_swap_region with (p := rev b) (x := x) (q := c') (y := y) (t := rev a).
      * cbn [app] in HSG. rewrite <- app_assoc in HSG. exact HSG.
      * rewrite rev_length. lia.
      * rewrite rev_length. simpl in HLX. rewrite app_length in HLX. simpl in HLX. lia.
      * intros m2 HS2 HO2. apply wp_ret. split; [|lia]. exists (a ++ [x]), c', (y :: b). rewrite app_length. simpl. cj; auto; try lia.
        -- rewrite EX. cbn [app]. rewrite <- !app_assoc. reflexivity.
        -- eapply only_trans; [exact HO|]. eapply only_weaken; [exact HO2|]. unfold within. rewrite HLX. rewrite !app_length, !rev_length. simpl. rewrite !app_length. simpl. rewrite !rev_length. intros; lia.
        -- rewrite rev_app_distr. cbn [rev app]. now rewrite <- app_assoc.
Qed.

Hypothesis HC : strict_weak_order comp.
Let HW : strict_weak_order lt := swo_by_proj _ _ comp proj HC.

Lemma insertion_sort_region : forall m f xs l (Q : unit -> mem A -> Prop), seg m f xs -> l = f + length xs ->
  (forall m', seg m' f (ssort lt xs) -> only (within f (length xs)) m m' -> Q tt m') -> wp (insertion_sort comp proj f l) Q m.
Proof.
  intros m f xs l Q HS HE HQ. eapply (runs_seg (fun xs ys => ys = ssort lt xs)); eauto.
  - intros pre ys post. destruct (insertion_sorts_stably comp proj HC pre ys post) as (zs & E & P1 & P2 & P3). exists zs. split; [exact E|]. apply stable_is_ssort; auto.
  - intros xs0 ys ->. apply ssort_length.
  - intros ys m' -> H1 H2. auto.
Qed.

(** Where the sorted elements [ds] go in the sorted list [l1]: the position of each splits [l1]. *)
Definition splits (first : nat) (l1 : list A) (d : A) (k : nat) : Prop :=
  exists u v, l1 = u ++ v /\ k = first + length u /\ (forall x, In x u -> lt d x = false) /\ (forall x, In x v -> lt d x = true).

Lemma insert_positions_wp : forall l1 ds m first mid data n (Q : list nat -> mem A -> Prop), sorted lt l1 -> sorted lt ds -> seg m first l1 -> seg m data ds ->
  mid = first + length l1 -> n = length ds ->
  (forall viter, length viter = S n -> nth_error viter n = Some mid -> (forall i d k, nth_error ds i = Some d -> nth_error viter i = Some k -> splits first l1 d k) -> Q viter m) ->
  wp (insert_positions comp proj first mid data n) Q m.
Proof.
  intros l1 ds m first mid data n Q O1 O2 S1 S2 -> -> HQ. unfold insert_positions. apply wp_bind.
  apply wp_loop' with
    (I := fun '(i, viter, linf) m1 => m1 = m /\ length viter = i /\ i <= length ds /\ (forall j d k, nth_error ds j = Some d -> nth_error viter j = Some k -> splits first l1 d k) /\
       exists u v, l1 = u ++ v /\ linf = first + length u /\ forall d x, nth_error ds i = Some d -> In x u -> lt d x = false)
    (mu := fun '(i, _, _) => length ds - i).
  - cj; auto; try lia. { intros [|j] d k _ H; discriminate. } exists [], l1. cj; auto; try (simpl; lia).
  - lia.
  - intros [[i viter] linf] m1 (-> & HL & Hi & HV & u & v & EU & -> & HU). destruct (Nat.ltb_spec i (length ds)) as [H|H].
    + destruct (nth_some _ ds i) as (d & Hd); auto. apply wp_bind. eapply wp_get; [eapply seg_get; eauto|].
      apply wp_bind. assert (S1' := S1). rewrite EU in S1'. apply seg_app in S1' as [_ SV]. apply seg_decomp in SV as (pre & post & EM & HP). rewrite EM.
      apply upper_bound_wp; auto. { rewrite EU, app_length. lia. }
      rewrite <- EM. intros u' v' [EV HM]. apply wp_ret. split; [|lia].
      destruct HM as [M1 M2].
      { intros i1 j1 x y Hij Hx Hy HP'. apply negb_true_iff in HP'. apply negb_true_iff. change (lt d x = false). change (lt d y = false) in HP'.
        apply (le_trans lt HW) with y; auto. rewrite EU in O1. apply sorted_app in O1 as (_ & O1 & _). apply (O1 i1 j1); auto. }
      assert (HSP : splits first l1 d (first + length u + length u')).
      { exists (u ++ u'), v'. cj; auto. { now rewrite EU, EV, app_assoc. } { rewrite app_length. lia. }
        - intros x Hx. apply in_app_or in Hx as [Hx|Hx]; [eapply HU; eauto|]. specialize (M1 x Hx). now apply negb_true_iff in M1.
        - intros x Hx. specialize (M2 x Hx). now apply negb_false_iff in M2. }
      cj; auto; try lia.
      * rewrite app_length. simpl. lia.
      * intros j d' k Hd' Hk. destruct (Nat.lt_ge_cases j (length viter)).
        -- rewrite nth_error_app1 in Hk by auto. eauto.
        -- assert (j = length viter). { apply nth_lt in Hk. rewrite app_length in Hk. simpl in Hk. lia. } subst j. rewrite nth_error_app2, Nat.sub_diag in Hk by auto.
           unfold nth_error in Hk. injection Hk as <-. rewrite HL in Hd'. rewrite Hd in Hd'. injection Hd' as <-. auto.
      * destruct HSP as (uu & vv & E1 & E2 & E3 & E4). exists uu, vv. cj; auto. intros d' x Hd' Hx.
        apply (le_trans lt HW) with d; [apply E3; auto|]. apply (O2 i (S i)); auto.
    + apply wp_ret. apply wp_ret. assert (i = length ds) by lia. subst i. apply HQ.
      * rewrite app_length. simpl. lia.
      * rewrite nth_error_app2 by lia. now rewrite H0, Nat.sub_diag.
      * intros i d k Hd Hk. rewrite nth_error_app1 in Hk; [eauto|]. apply nth_lt in Hd. lia.
Qed.

(** A move to the right, to an overlapping region. *)
Lemma move_backward_region : forall xs m f l r (Q : nat -> mem A -> Prop), l < r -> seg m f xs -> l = f + length xs -> lives m f (r - f) ->
  (forall p m', seg m' (r - length xs) xs -> lives m' f (r - f) -> only (within f (r - f)) m m' -> Q p m') ->
  wp (move_backward f l r) Q m.
Proof.
  intros xs m f l r Q HR HS -> HL HQ. unfold move_backward.
  apply wp_loop' with
    (I := fun '(l1, r1) m1 => exists a b, xs = a ++ b /\ l1 = f + length a /\ r1 = r - length b /\
       seg m1 f a /\ seg m1 (r - length b) b /\ lives m1 f (r - f) /\ only (within f (r - f)) m m1)
    (mu := fun '(l1, _) => l1 - f).
  - exists xs, []. simpl. rewrite !Nat.sub_0_r, app_nil_r. cj; auto. { apply seg_nil. destruct HL. lia. } { apply only_refl. }
  - lia.
  - intros [l1 r1] m1 (a & b & -> & -> & -> & S1 & S2 & L1 & HO). rewrite app_length in *. destruct (Nat.eqb_spec f (f + length a)) as [E|E].
    + apply wp_ret. destruct a; [|simpl in E; lia]. simpl in *. auto.
    + destruct (last_split _ a) as (a' & x & ->). { intros ->. simpl in E. lia. } rewrite app_length in *. simpl in *. apply seg_app in S1 as [S1 Hx]. apply seg_cons in Hx as [Hx _].
      apply wp_bind. eapply wp_move_one; [|replace (f + (length a' + 1) - 1) with (f + length a') by lia; exact Hx|eapply lives_at; [exact L1|lia]|]; [lia|].
      intros m2 Hr HLV HO2. apply wp_ret. split; [|lia].
      exists a', (x :: b). simpl. cj; try lia.
      * now rewrite <- app_assoc.
      * eapply seg_only; [exact HO2| |exact S1]. unfold within. intros i Hi. lia.
      * apply seg_cons. replace (r - length b - 1) with (r - S (length b)) in * by lia. split; auto. replace (S (r - S (length b))) with (r - length b) by lia.
        eapply seg_only; [exact HO2| |exact S2]; unfold within; intros i Hi; lia.
      * eapply lives_change; eauto. apply HO2.
      * eapply only_trans; [exact HO|]. eapply only_weaken; [exact HO2|]. unfold within. intros i Hi. lia.
Qed.

Lemma merge_first : forall d v d2, (forall x, In x v -> lt d x = true) -> merge lt v (d :: d2) = d :: merge lt v d2.
Proof. intros d [|x v] d2 H. { now rewrite !merge_nil_l. } rewrite merge_cons, H; auto. now left. Qed.
Lemma merge_prefix : forall c v d2, (forall x d, In x c -> In d d2 -> lt d x = false) -> merge lt (c ++ v) d2 = c ++ merge lt v d2.
Proof.
  induction c as [|x c IH]; intros v d2 H; auto. destruct d2 as [|d d2]. { now rewrite !merge_nil_r. }
  cbn [app]. rewrite merge_cons, H by (now left). f_equal. apply IH. intros; apply H; auto. now right.
Qed.

Lemma insert_moves_wp : forall l1 ds viter m first mid data n (Q : unit -> mem A -> Prop), sorted lt ds ->
  seg m first l1 -> seg m data ds -> n = length ds -> mid = first + length l1 -> lives m first (length l1 + n) -> apart first (length l1 + n) data n ->
  length viter = S n -> nth_error viter n = Some mid -> (forall i d k, nth_error ds i = Some d -> nth_error viter i = Some k -> splits first l1 d k) ->
  (forall m', seg m' first (merge lt l1 ds) -> lives m' data n -> only (fun i => within first (length l1 + n) i \/ within data n i) m m' -> Q tt m') ->
  wp (insert_moves viter data n) Q m.
Proof.
  intros l1 ds viter m first mid data n Q OD S1 S2 -> -> HL HA HV HM HSP HQ. unfold insert_moves. set (n := length ds) in *.
  apply wp_loop' with
    (I := fun i m1 => exists u v d1 d2, l1 = u ++ v /\ ds = d1 ++ d2 /\ length d1 = i /\ nth_error viter i = Some (first + length u) /\ (forall x d, In x u -> In d d2 -> lt d x = false) /\
       (i = n -> v = []) /\ (forall x d, In x v -> nth_error ds i = Some d -> lt d x = true) /\
       seg m1 first u /\ seg m1 (first + length u + i) (merge lt v d2) /\ lives m1 first (length l1 + n) /\ seg m1 data d1 /\ lives m1 data n /\
       only (fun i => within first (length l1 + n) i \/ within data n i) m m1)
    (mu := fun i => i).
  - exists l1, [], ds, []. rewrite !app_nil_r, merge_nil_r. cj; auto.
    + intros x d _ [].
    + apply seg_nil. destruct HL. lia.
    + unfold n. now apply seg_lives.
    + apply only_refl.
  - lia.
  - intros i m1 (u & v & d1 & d2 & EL & ED & EI & HK & HLE & HZ & HGT & SU & SM & L1 & SD & LD & HO). destruct (Nat.eqb_spec i 0) as [->|Hi].
    + apply wp_ret. destruct d1; [|discriminate]. cbn [app] in ED. subst d2. apply HQ; auto.
      rewrite EL, merge_prefix by auto. apply seg_app. split; auto. now rewrite Nat.add_0_r in SM.
    + destruct (last_split _ d1) as (d1' & d & ->). { intros ->. simpl in EI. lia. }
      rewrite app_length in EI. simpl in EI. assert (Hd : nth_error ds (i - 1) = Some d). { rewrite ED, <- app_assoc. rewrite nth_error_app2 by lia. now replace (i - 1 - length d1') with 0 by lia. }
      assert (Hin : i <= n). { apply nth_lt in Hd. unfold n. lia. }
      destruct (nth_some _ viter (i - 1)) as (k & Hk); [lia|].
      apply wp_bind. eapply wp_rd; [exact HK|]. apply wp_bind. eapply wp_rd; [exact Hk|].
      destruct (HSP _ _ _ Hd Hk) as (u0 & v0 & E0 & -> & P1 & P2).
      assert (HP : exists c, u = u0 ++ c /\ v0 = c ++ v).
      { rewrite EL in E0. apply app_eq_app in E0 as (c & [[E1 E2]|[E1 E2]]); [exists c; auto|]. destruct c as [|x c].
        { exists []. rewrite app_nil_r in *. auto. }
        exfalso. assert (Hx : In x v) by (rewrite E2; now left). destruct (Nat.eq_dec i n) as [->|Hne].
        - rewrite HZ in Hx by auto. destruct Hx.
        - destruct (nth_some _ ds i) as (d' & Hd'); [lia|]. specialize (HGT _ _ Hx Hd').
          rewrite (le_trans lt HW x d d') in HGT; [discriminate| |].
          + apply P1. rewrite E1. apply in_or_app. right. now left.
          + apply (OD (i - 1) i); auto. lia. }
      assert (HDD : forall d', In d' d2 -> lt d' d = false).
      { rewrite ED, <- app_assoc in OD. apply sorted_app in OD as (_ & OD & _). cbn [app] in OD. apply sorted_cons in OD as [OD _]. auto. }
      destruct HP as (c & -> & ->). rewrite app_length in *.
      apply seg_app in SU as [SU0 SC].
      apply wp_bind. eapply move_backward_region; [|exact SC| |eapply lives_sub; [exact L1|lia|]|]; try lia.
      { assert (length l1 = length u0 + length c + length v) by (rewrite EL, !app_length; lia). lia. }
      intros _ m2 S3 L3 O3. replace (first + (length u0 + length c) + i - length c) with (first + length u0 + i) in S3 by lia.
      assert (HLL : length l1 = length u0 + length c + length v) by (rewrite EL, !app_length; lia).
      assert (HDn : n = length d1' + 1 + length d2) by (unfold n; rewrite ED, !app_length; simpl; lia).
      replace (first + (length u0 + length c) + i - (first + length u0)) with (length c + i) in * by lia.
      assert (SD2 : seg m2 data (d1' ++ [d])). { eapply seg_only; [exact O3| |exact SD]. rewrite app_length. win. }
      assert (L12 : lives m2 first (length l1 + n)).
      { eapply lives_change; [exact L1|apply O3|]. intros k Hk' HLk. destruct (Nat.lt_ge_cases k (first + length u0)); [eapply live_only; [exact O3| |exact HLk]; win|].
        destruct (Nat.lt_ge_cases k (first + length u0 + (length c + i))); [eapply lives_at; [exact L3|lia]|eapply live_only; [exact O3| |exact HLk]; win]. }
      apply seg_app in SD2 as [SD2 Sd]. apply seg_cons in Sd as [Sd _].
      apply wp_bind. eapply wp_move_one with (a := d); [|replace (data + (i - 1)) with (data + length d1') by lia; exact Sd|eapply lives_at; [exact L12|lia]|]. { unfold apart in HA. lia. }
      intros m3 Hm3 HLV O4. apply wp_ret. split; [|lia].
      exists u0, (c ++ v), d1', (d :: d2). cj; auto; try lia.
      * now rewrite ED, <- app_assoc.
      * intros x d' Hx [<-|Hd']; auto. apply HLE; auto. apply in_or_app. auto.
      * intros x d' Hx Hd'. rewrite Hd in Hd'. injection Hd' as <-. auto.
      * eapply seg_only; [exact O4| |]. { win. } eapply seg_only; [exact O3| |exact SU0]. win.
      * rewrite merge_first by auto. rewrite merge_prefix by (intros; apply HLE; auto; apply in_or_app; auto).
        apply seg_cons. split; [replace (first + length u0 + (i - 1)) with (first + length u0 + (i - 1)) by lia; auto|].
        replace (S (first + length u0 + (i - 1))) with (first + length u0 + i) by lia. apply seg_app. split.
        -- eapply seg_only; [exact O4| |exact S3]. win.
        -- replace (first + length u0 + i + length c) with (first + (length u0 + length c) + i) by lia. eapply seg_only; [exact O4| |].
           { rewrite merge_length. win. } eapply seg_only; [exact O3| |exact SM]. win.
      * eapply lives_change; [exact L12|apply O4|auto].
      * eapply seg_only; [exact O4| |exact SD2]. win.
      * eapply lives_change; [eapply lives_only; [exact O3| |exact LD]; win|apply O4|auto].
      * eapply only_trans; [exact HO|]. eapply only_trans; [eapply only_weaken; [exact O3|]; win|]. eapply only_weaken; [exact O4|]. win.
Qed.

End Insert.
