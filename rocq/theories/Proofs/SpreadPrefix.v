(** spreadsort on strings: the order of the strings, and the search for the first character at which they differ. *)
From Coq Require Import List Arith ZArith Lia Permutation Bool.
From Verif Require Import Spec.Order Lang.Mem Spec.Sorts Proofs.Wp Proofs.OrderLib Model.Indirect Proofs.Indirect Proofs.Search Proofs.Regions
  Model.Counting Model.Comparators Proofs.Comparators Model.Ska Proofs.SkaLib Model.Spread Model.SpreadString.
Import ListNotations.
Local Open Scope nat_scope.
Local Arguments nth_error : simpl never.
Local Arguments upd : simpl never.
Local Arguments Nat.leb : simpl never.
Local Arguments Nat.ltb : simpl never.
Local Arguments Nat.eqb : simpl never.
Local Arguments Nat.sub : simpl never.
Local Arguments Nat.pow : simpl never.
Local Arguments loop : simpl never.
Local Opaque seq bin_count.

(** * The lexicographic order *)
Definition lex : list nat -> list nat -> bool := lexicographical_compare Nat.ltb.
Lemma nat_swo : strict_weak_order Nat.ltb.
Proof. constructor; intros; rewrite ?Nat.ltb_lt, ?Nat.ltb_ge in *; lia. Qed.
Lemma lex_swo : strict_weak_order lex.
Proof. apply lexicographical_compare_swo. apply nat_swo. Qed.
Lemma lex_cons : forall a b s t, lex (a :: s) (b :: t) = (if a =? b then lex s t else a <? b).
Proof.
  intros a b s t. unfold lex. cbn [lexicographical_compare]. destruct (Nat.ltb_spec a b), (Nat.ltb_spec b a), (Nat.eqb_spec a b); try lia; auto.
Qed.
Lemma lex_nil : forall s, lex s [] = false.
Proof. intros [|a s]; reflexivity. Qed.
Lemma lex_app : forall p s t, lex (p ++ s) (p ++ t) = lex s t.
Proof. induction p as [|a p IH]; intros s t; auto. cbn [app]. rewrite lex_cons, Nat.eqb_refl. apply IH. Qed.
Lemma flip_swo : forall T (lt : T -> T -> bool), strict_weak_order lt -> strict_weak_order (fun x y => lt y x).
Proof. intros T lt [H1 H2 H3]. constructor; intros; eauto. Qed.
Lemma firstn_plus : forall T (l : list T) a b, firstn (a + b) l = firstn a l ++ firstn b (skipn a l).
Proof. intros T l a. revert l. induction a as [|a IH]; intros l b; auto. destruct l as [|x l]; cbn [plus firstn skipn app]; [now rewrite firstn_nil|]. now rewrite IH. Qed.
Lemma firstn_le_eq : forall T (s t : list T) a b, a <= b -> firstn b s = firstn b t -> firstn a s = firstn a t.
Proof. intros T s t a b H E. replace a with (Nat.min a b) by lia. rewrite <- !firstn_firstn. now rewrite E. Qed.

Section Strings.
Context {A : Type} (cs : nat) (proj : A -> list Z).
Implicit Types (m : mem A).
Local Notation size x := (length (proj x)).
Definition ustr (x : A) : list nat := map (uchar cs) (proj x).
Lemma ustr_len : forall x, length (ustr x) = size x.
Proof. intros. apply map_length. Qed.
Lemma less_lex : forall x y, by_proj (string_less cs) proj x y = lex (ustr x) (ustr y).
Proof.
  intros x y. unfold by_proj, string_less, ustr, lex. generalize (proj y). induction (proj x) as [|a s IH]; intros [|b t]; cbn [lexicographical_compare map]; auto. now rewrite IH.
Qed.
Lemma string_less_swo : strict_weak_order (string_less cs).
Proof. apply lexicographical_compare_swo. constructor; intros; rewrite ?Nat.ltb_lt, ?Nat.ltb_ge in *; lia. Qed.
Lemma string_greater_swo : strict_weak_order (string_greater cs).
Proof. apply flip_swo. apply string_less_swo. Qed.

Lemma uchar_lt : forall c, uchar cs c < bin_count cs.
Proof.
  Transparent bin_count. intros c. unfold uchar, bin_count. assert (H : (0 < 2 ^ (8 * Z.of_nat cs))%Z) by (apply Z.pow_pos_nonneg; lia). pose proof (Z.mod_pos_bound c _ H). apply Nat2Z.inj_lt. rewrite Z2Nat.id by lia.
  rewrite Nat2Z.inj_pow, Nat2Z.inj_mul. replace (Z.of_nat cs * Z.of_nat 8)%Z with (8 * Z.of_nat cs)%Z by lia. change (Z.of_nat 2) with 2%Z. lia.
  Opaque bin_count.
Qed.

(** * Comparison from an offset *)
Definition key (off : nat) (x : A) : list nat := Nat.min (size x) off :: skipn off (ustr x).
Lemma skipn_cons : forall x u, u < size x -> skipn u (ustr x) = uchar cs (nth u (proj x) 0%Z) :: skipn (S u) (ustr x).
Proof.
  intros x u. unfold ustr. generalize (proj x). clear x. induction u as [|u IH]; intros [|a s] H; cbn [length] in H; try lia; auto. cbn [map skipn nth]. apply IH. lia.
Qed.
Lemma skipn_nil' : forall x u, size x <= u -> skipn u (ustr x) = [].
Proof. intros. apply skipn_all2. now rewrite ustr_len. Qed.
Lemma compare_from_lex : forall k x y u, u <= size x -> u <= size y -> k = Nat.min (size x) (size y) - u -> compare_from cs proj Nat.ltb k x y u = lex (skipn u (ustr x)) (skipn u (ustr y)).
Proof.
  induction k as [|k IH]; intros x y u Hx Hy Hk; cbn [compare_from].
  - destruct (Nat.ltb_spec (size x) (size y)).
    + rewrite (skipn_nil' x) by lia. rewrite (skipn_cons y) by lia. reflexivity.
    + rewrite (skipn_nil' y) by lia. now rewrite lex_nil.
  - rewrite (skipn_cons x), (skipn_cons y) by lia. rewrite lex_cons. destruct (Nat.eqb_spec (uchar cs (nth u (proj x) 0%Z)) (uchar cs (nth u (proj y) 0%Z))); cbn [negb]; auto. apply IH; lia.
Qed.
Lemma offset_less_key : forall off x y, offset_less_than cs proj off x y = by_proj lex (key off) x y.
Proof.
  intros off x y. unfold offset_less_than, by_proj, key. rewrite lex_cons. destruct (Nat.eqb_spec (Nat.min (size x) off) (Nat.min (size y) off)) as [E|E].
  - destruct (Nat.le_gt_cases off (size x)) as [Hx|Hx].
    + apply compare_from_lex; lia.
    + replace (Nat.min (size x) (size y) - off) with 0 by lia. cbn [compare_from]. rewrite (skipn_nil' y) by lia. rewrite lex_nil. apply Nat.ltb_ge. lia.
  - replace (Nat.min (size x) (size y) - off) with 0 by lia. cbn [compare_from]. apply eq_true_iff_eq. rewrite !Nat.ltb_lt. lia.
Qed.
Lemma offset_greater_less : forall off x y, offset_greater_than cs proj off x y = offset_less_than cs proj off y x.
Proof.
  intros off x y. unfold offset_less_than, offset_greater_than. rewrite (Nat.min_comm (size y)). generalize (Nat.min (size x) (size y) - off) as k. intros k. revert off. induction k as [|k IH]; intros u; cbn [compare_from]; auto.
  rewrite (Nat.eqb_sym (uchar cs (nth u (proj y) 0%Z))). destruct (negb _); auto.
Qed.
Lemma offset_less_swo : forall off, strict_weak_order (offset_less_than cs proj off).
Proof.
  intros off. pose proof (swo_by_proj _ _ lex (key off) lex_swo) as [H1 H2 H3]. constructor; intros *; rewrite ?offset_less_key; eauto.
Qed.
Lemma offset_greater_swo : forall off, strict_weak_order (offset_greater_than cs proj off).
Proof.
  intros off. destruct (flip_swo _ _ (offset_less_swo off)) as [H1 H2 H3]. constructor; intros *; rewrite ?offset_greater_less; eauto.
Qed.
Lemma offset_less_lex : forall off x y, off <= size x -> off <= size y -> firstn off (ustr x) = firstn off (ustr y) -> offset_less_than cs proj off x y = lex (ustr x) (ustr y).
Proof.
  intros off x y Hx Hy E. unfold offset_less_than. rewrite compare_from_lex by lia. rewrite <- (firstn_skipn off (ustr x)) at 2. rewrite <- (firstn_skipn off (ustr y)) at 2. rewrite E. now rewrite lex_app.
Qed.

(** * Common prefixes *)
Definition sharing (off : nat) (xs : list A) : Prop := exists p, length p = off /\ forall x, In x xs -> firstn off (ustr x) = p.
Lemma sharing_size : forall off xs x, sharing off xs -> In x xs -> off <= size x.
Proof. intros off xs x (p & HL & H) Hx. specialize (H x Hx). apply (f_equal (@length nat)) in H. rewrite firstn_length, ustr_len in H. lia. Qed.
Lemma sharing_ended : forall off xs x y, sharing off xs -> In x xs -> In y xs -> size x <= off -> lex (ustr y) (ustr x) = false.
Proof.
  intros off xs x y HS Hx Hy Hs. pose proof (sharing_size off xs x HS Hx). pose proof (sharing_size off xs y HS Hy). destruct HS as (p & HL & H1).
  assert (Ex : ustr x = p ++ []). { rewrite app_nil_r, <- (H1 x Hx). symmetry. apply firstn_all2. rewrite ustr_len. lia. }
  rewrite <- (firstn_skipn off (ustr y)), (H1 y Hy), Ex, lex_app. apply lex_nil.
Qed.
Lemma sharing_incl : forall off xs ys, sharing off xs -> (forall y, In y ys -> In y xs) -> sharing off ys.
Proof. intros off xs ys (p & H1 & H2) H. exists p. split; auto. Qed.

(** [parted]: the strings that have more than [off] characters have the same [off] first ones, the other ones are equal and are a prefix of these. *)
Definition parted (off : nat) (xs : list A) : Prop := exists p k, length p = off /\ forall x, In x xs -> size x <= off /\ ustr x = firstn k p \/ off < size x /\ firstn off (ustr x) = p.
Definition cbin (off : nat) (x : A) : nat := if size x <=? off then 0 else S (uchar cs (nth off (proj x) 0%Z)).
Lemma cbin_lt : forall off x, cbin off x < bin_count cs + 1.
Proof. intros off x. unfold cbin. destruct (size x <=? off); [lia|]. pose proof (uchar_lt (nth off (proj x) 0%Z)). lia. Qed.
Lemma cbin_long : forall off x, off < size x -> ustr x = firstn off (ustr x) ++ Nat.pred (cbin off x) :: skipn (S off) (ustr x) /\ 0 < cbin off x.
Proof.
  intros off x H. unfold cbin. destruct (Nat.leb_spec (size x) off); [lia|]. split; [|lia]. rewrite <- (firstn_skipn off (ustr x)) at 1. f_equal. now apply skipn_cons.
Qed.
Lemma parted_order : forall off xs x y, parted off xs -> In x xs -> In y xs -> cbin off x < cbin off y -> lex (ustr x) (ustr y) = true.
Proof.
  intros off xs x y (p & k & HL & H) Hx Hy Hlt. destruct (H y Hy) as [[Hy1 _]|[Hy1 Hy2]].
  { unfold cbin in Hlt. destruct (Nat.leb_spec (size y) off); lia. }
  destruct (cbin_long off y Hy1) as [Ey Hyp]. rewrite Hy2 in Ey. destruct (H x Hx) as [[Hx1 Hx2]|[Hx1 Hx2]].
  - rewrite Hx2, Ey. rewrite <- (firstn_skipn k p) at 2. rewrite <- app_assoc. rewrite <- (app_nil_r (firstn k p)) at 1. rewrite lex_app. now destruct (skipn k p).
  - destruct (cbin_long off x Hx1) as [Ex Hxp]. rewrite Hx2 in Ex. rewrite Ex, Ey, lex_app, lex_cons. destruct (Nat.eqb_spec (Nat.pred (cbin off x)) (Nat.pred (cbin off y))); [lia|]. apply Nat.ltb_lt. lia.
Qed.
Lemma parted_ended : forall off xs x y, parted off xs -> In x xs -> In y xs -> cbin off x = 0 -> cbin off y = 0 -> ustr x = ustr y.
Proof.
  intros off xs x y (p & k & HL & H) Hx Hy Ex Ey. destruct (H x Hx) as [[_ Hx1]|[Hx1 _]]; [|destruct (cbin_long off x Hx1); lia]. destruct (H y Hy) as [[_ Hy1]|[Hy1 _]]; [|destruct (cbin_long off y Hy1); lia]. congruence.
Qed.
Lemma parted_bin : forall off xs u ys, parted off xs -> (forall y, In y ys -> In y xs /\ cbin off y = S u) -> sharing (S off) ys.
Proof.
  intros off xs u ys (p & k & HL & H) HY. exists (p ++ [u]). split; [rewrite app_length; cbn [length]; lia|]. intros y Hy. destruct (HY y Hy) as [H1 H2].
  destruct (H y H1) as [[H3 _]|[H3 H4]]. { unfold cbin in H2. destruct (Nat.leb_spec (size y) off); [discriminate|lia]. }
  replace (S off) with (off + 1) by lia. rewrite firstn_plus, H4. f_equal. rewrite skipn_cons by lia. cbn [firstn]. f_equal. unfold cbin in H2. destruct (Nat.leb_spec (size y) off); [lia|]. now injection H2.
Qed.

(** * update_offset *)
Definition agree (x0 : A) (off : nat) (xs : list A) (r : nat) : Prop := forall x, In x xs -> off < size x -> r < size x /\ firstn r (ustr x) = firstn r (ustr x0).

Lemma char_at_ok : forall x u (Q : nat -> mem A -> Prop) m, u < size x -> Q (uchar cs (nth u (proj x) 0%Z)) m -> wp (char_at cs proj x u) Q m.
Proof. intros x u Q m H HQ. unfold char_at. rewrite (nth_error_nth' _ 0%Z) by auto. now apply wp_ret. Qed.
Lemma differ_wp : forall k x y u m, u + k <= size x -> u + k <= size y ->
  wp (differ cs proj k x y u) (fun b m' => m' = m /\ (b = false -> firstn k (skipn u (ustr x)) = firstn k (skipn u (ustr y)))) m.
Proof.
  induction k as [|k IH]; intros x y u m Hx Hy; cbn [differ]; [apply wp_ret; auto|].
  wstep. apply char_at_ok; [lia|]. wstep. apply char_at_ok; [lia|]. wstep. eapply wp_mono; [apply IH; lia|]. cbv beta. intros b m' [-> Hb]. apply wp_ret. split; auto. intros E.
  apply orb_false_iff in E as [E1 E2]. apply negb_false_iff, Nat.eqb_eq in E1. rewrite (skipn_cons x), (skipn_cons y) by lia. cbn [firstn]. f_equal; auto.
Qed.

Lemma update_step_wp : forall zs x0 m f off next step, seg m f zs -> nth_error zs 0 = Some x0 -> off < size x0 -> agree x0 off zs next -> 1 <= step ->
  wp (update_step cs proj f (f + length zs) off next step) (fun r m' => m' = m /\ match r with inl r => r = next | inr s => 1 <= s /\ agree x0 off zs (next + s) end) m.
Proof.
  intros zs x0 m f off next step HS H0 Hs0 HA Hst. unfold update_step. pose proof (nth_lt _ _ _ H0) as Hlen.
  apply wp_loop' with (I := fun '(curr, s) m' => m' = m /\ 1 <= s /\ exists i, curr = f + i /\ i < length zs /\ forall j x, j < i -> nth_error zs j = Some x -> off < size x -> next + s < size x /\ firstn (next + s) (ustr x) = firstn (next + s) (ustr x0))
    (mu := fun '(curr, s) => f + length zs - curr + s).
  - split; auto. split; auto. exists 0. split; [lia|]. split; auto. intros j x Hj. lia.
  - lia.
  - intros [curr s] m' (-> & Hs & i & -> & Hi & HJ). destruct (nth_some _ zs i) as (x & Hx); [lia|]. wstep. eapply wp_get; [eapply seg_get; eauto|]. assert (Hxin : In x zs) by (eapply nth_error_In; eauto).
    assert (HW : forall s', s' <= s -> forall j x, j < i -> nth_error zs j = Some x -> off < size x -> next + s' < size x /\ firstn (next + s') (ustr x) = firstn (next + s') (ustr x0)).
    { intros s' Hs' j y Hj Hy Hl. destruct (HJ j y Hj Hy Hl) as [J1 J2]. split; [lia|]. eapply firstn_le_eq; [|exact J2]. lia. }
    assert (Hend : forall s', 1 <= s' <= s -> (off < size x -> next + s' < size x /\ firstn (next + s') (ustr x) = firstn (next + s') (ustr x0)) ->
      wp (if S (f + i) =? f + length zs then ret (inr (inr s')) else ret (inl (S (f + i), s'))) (fun r m' => match r with
        | inl s1 => (let '(curr, s) := s1 in m' = m /\ 1 <= s /\ exists i, curr = f + i /\ i < length zs /\ forall j x, j < i -> nth_error zs j = Some x -> off < size x -> next + s < size x /\ firstn (next + s) (ustr x) = firstn (next + s) (ustr x0)) /\
                    (let '(curr, s) := s1 in f + length zs - curr + s) < f + length zs - (f + i) + s
        | inr r => m' = m /\ match r with inl r => r = next | inr s => 1 <= s /\ agree x0 off zs (next + s) end end) m).
    { intros s' Hs' Hgood. assert (HJ' : forall j y, j <= i -> nth_error zs j = Some y -> off < size y -> next + s' < size y /\ firstn (next + s') (ustr y) = firstn (next + s') (ustr x0)).
      { intros j y Hj Hy Hl. destruct (Nat.eq_dec j i) as [->|]; [|apply (HW s' ltac:(lia) j); auto; lia]. assert (y = x) by congruence. subst. auto. }
      destruct (Nat.eqb_spec (S (f + i)) (f + length zs)); apply wp_ret.
      - split; auto. split; [lia|]. intros y Hy Hl. apply In_nth_error in Hy as (j & Hj). apply (HJ' j); auto. apply nth_lt in Hj. lia.
      - split; [|lia]. split; auto. split; [lia|]. exists (S i). split; [lia|]. split; [lia|]. intros j y Hj. apply HJ'. lia. }
    destruct (Nat.ltb_spec off (size x)) as [Hl|Hl]; [|eapply wp_mono; [apply (Hend s); [lia|intros; lia]|intros [[c2 s2]|r] m2 Hm2; exact Hm2]].
    destruct (HA x Hxin Hl) as [HA1 HA2].
    set (s' := if size x <=? next + s then size x - next - 1 else s). assert (Hs's : s' <= s /\ next + s' < size x). { unfold s'. destruct (Nat.leb_spec (size x) (next + s)); lia. }
    destruct ((size x <=? next + s) && (s' <? 1)) eqn:ET; [apply wp_ret; auto|].
    assert (Hs'1 : 1 <= s'). { apply andb_false_iff in ET as [ET|ET]; [|apply Nat.ltb_ge in ET; lia]. unfold s'. rewrite ET. auto. }
    wstep. eapply wp_get; [replace f with (f + 0) by lia; eapply seg_get; eauto|]. wstep.
    assert (Hx0 : next + s' < size x0). { destruct (Nat.eq_dec i 0) as [->|]; [assert (x = x0) by congruence; subst; lia|]. destruct (HW s' ltac:(lia) 0 x0 ltac:(lia) H0 Hs0). auto. }
    eapply wp_mono; [apply differ_wp; lia|]. cbv beta. intros d m' [-> Hd]. destruct d.
    + destruct (Nat.eqb_spec s' 1); [apply wp_ret; auto|]. apply wp_ret. assert (Hd' : (if 4 <? s' then 4 else 1) < s' /\ 1 <= (if 4 <? s' then 4 else 1)) by (destruct (Nat.ltb_spec 4 s'); lia).
      split; [|lia]. split; auto. split; [lia|]. exists i. split; auto. split; auto. intros j y Hj. apply HW; auto. lia.
    + eapply wp_mono; [apply (Hend s'); [lia|]|intros [[c2 s2]|r] m2 Hm2; exact Hm2]. intros _. split; [lia|]. rewrite !firstn_plus, HA2. f_equal. auto.
Qed.

Lemma update_offset_wp : forall zs x0 m f off, (cs = 1 \/ cs = 2) -> seg m f zs -> nth_error zs 0 = Some x0 -> off < size x0 -> sharing off zs ->
  wp (update_offset cs proj f (f + length zs) off) (fun r m' => m' = m /\ off <= r /\ agree x0 off zs r) m.
Proof.
  intros zs x0 m f off Hcs HS H0 Hs0 HSh. unfold update_offset. wstep. eapply wp_get; [replace f with (f + 0) by lia; eapply seg_get; eauto|]. assert (Hin : In x0 zs) by (eapply nth_error_In; eauto).
  apply wp_loop' with (I := fun '(next, step) m' => m' = m /\ off <= next /\ 1 <= step /\ agree x0 off zs next) (mu := fun '(next, _) => size x0 - next).
  - split; auto. split; auto. split; [destruct Hcs as [E|E]; rewrite E; cbn; lia|]. intros x Hx Hl. split; auto. destruct HSh as (p & _ & HSh). rewrite (HSh x Hx). symmetry. now apply HSh.
  - lia.
  - intros [next step] m' (-> & Hn & Hst & HA). wstep. eapply wp_mono; [apply (update_step_wp zs x0); auto|]. cbv beta. intros [r|s] m' [-> Hr]; apply wp_ret; [subst r; auto|]. destruct Hr as [Hs HA']. destruct (HA x0 Hin Hs0) as [H1 _].
    split; [|lia]. split; auto. split; [lia|]. auto.
Qed.
Lemma agree_parted : forall zs x0 off r, off <= r -> agree x0 off zs r -> In x0 zs -> off < size x0 -> sharing off zs -> parted r zs.
Proof.
  intros zs x0 off r Hr HA Hin Hs0 HSh. destruct (HA x0 Hin Hs0) as [H0 _]. exists (firstn r (ustr x0)), off. split; [rewrite firstn_length, ustr_len; lia|]. intros x Hx.
  destruct (Nat.le_gt_cases (size x) off) as [H|H].
  - left. split; [lia|]. pose proof (sharing_size off zs x HSh Hx). destruct HSh as (p & _ & HSh). rewrite firstn_firstn. replace (Nat.min off r) with off by lia. rewrite (HSh x0 Hin), <- (HSh x Hx). symmetry. apply firstn_all2. rewrite ustr_len. lia.
  - right. now apply HA.
Qed.

(** * The strings that have ended *)
Lemma skip_ended_wp : forall xs m f off, 1 <= length xs -> seg m f xs ->
  wp (skip_ended proj f (f + length xs) off) (fun r m' => m' = m /\ match r with
    | None => forall x, In x xs -> size x <= off
    | Some g => exists i x, g = f + i /\ nth_error xs i = Some x /\ off < size x /\ forall j y, j < i -> nth_error xs j = Some y -> size y <= off end) m.
Proof.
  intros xs m f off HL HS. unfold skip_ended.
  apply wp_loop' with (I := fun g m' => m' = m /\ exists i, g = f + i /\ i < length xs /\ forall j y, j < i -> nth_error xs j = Some y -> size y <= off) (mu := fun g => f + length xs - g); [|lia|].
  - split; auto. exists 0. split; [lia|]. split; [lia|]. intros j y Hj. lia.
  - intros g m' (-> & i & -> & Hi & HJ). destruct (nth_some _ xs i) as (x & Hx); [lia|]. wstep. eapply wp_get; [eapply seg_get; eauto|].
    destruct (Nat.leb_spec (size x) off) as [H|H].
    + assert (HJ' : forall j y, j <= i -> nth_error xs j = Some y -> size y <= off). { intros j y Hj Hy. destruct (Nat.eq_dec j i) as [->|]; [assert (y = x) by congruence; subst; auto|apply (HJ j); auto; lia]. }
      destruct (Nat.eqb_spec (S (f + i)) (f + length xs)); apply wp_ret.
      * split; auto. intros y Hy. apply In_nth_error in Hy as (j & Hj). apply (HJ' j); auto. apply nth_lt in Hj. lia.
      * split; [|lia]. split; auto. exists (S i). split; [lia|]. split; [lia|]. intros j y Hj. apply HJ'. lia.
    + apply wp_ret. split; auto. exists i, x. auto.
Qed.
Lemma last_unended_wp : forall xs m f off x i, nth_error xs i = Some x -> off < size x -> seg m f xs ->
  wp (last_unended proj (f + i) (f + length xs) off) (fun r m' => m' = m /\ exists k, r = f + k /\ i < k <= length xs /\ forall j y, k <= j -> nth_error xs j = Some y -> size y <= off) m.
Proof.
  intros xs m f off x0 i0 H0 Hs0 HS. unfold last_unended. pose proof (nth_lt _ _ _ H0).
  apply wp_loop' with (I := fun g m' => m' = m /\ exists i, g = f + i /\ i0 <= i < length xs /\ forall j y, i < j -> nth_error xs j = Some y -> size y <= off) (mu := fun g => g - (f + i0)); [|lia|].
  - split; auto. exists (length xs - 1). split; [lia|]. split; [lia|]. intros j y Hj Hy. apply nth_lt in Hy. lia.
  - intros g m' (-> & i & -> & Hi & HJ). destruct (nth_some _ xs i) as (x & Hx); [lia|]. wstep. eapply wp_get; [eapply seg_get; eauto|].
    destruct (Nat.leb_spec (size x) off) as [Hl|Hl].
    + assert (i <> i0) by (intros ->; assert (x = x0) by congruence; subst; lia). destruct (Nat.eqb_spec (f + i) 0); [lia|]. apply wp_ret. split; [|lia]. split; auto. exists (i - 1). split; [lia|]. split; [lia|].
      intros j y Hj Hy. destruct (Nat.eq_dec j i) as [->|]; [assert (y = x) by congruence; subst; auto|apply (HJ j); auto; lia].
    + apply wp_ret. split; auto. exists (S i). split; [lia|]. split; [lia|]. intros j y Hj. apply HJ. lia.
Qed.
Lemma longest_wp : forall xs m f, seg m f xs -> wp (longest proj f (f + length xs)) (fun n m' => m' = m /\ forall x, In x xs -> size x <= n) m.
Proof.
  intros xs m f HS. unfold longest.
  apply wp_loop' with (I := fun '(c, n) m' => m' = m /\ exists i, c = f + i /\ i <= length xs /\ forall j y, j < i -> nth_error xs j = Some y -> size y <= n) (mu := fun '(c, _) => f + length xs - c); [|lia|].
  - split; auto. exists 0. split; [lia|]. split; [lia|]. intros j y Hj. lia.
  - intros [c n] m' (-> & i & -> & Hi & HJ). destruct (Nat.eqb_spec (f + i) (f + length xs)).
    + apply wp_ret. split; auto. intros x Hx. apply In_nth_error in Hx as (j & Hj). apply (HJ j); auto. apply nth_lt in Hj. lia.
    + destruct (nth_some _ xs i) as (x & Hx); [lia|]. wstep. eapply wp_get; [eapply seg_get; eauto|]. apply wp_ret. split; [|lia]. split; auto. exists (S i). split; [lia|]. split; [lia|].
      intros j y Hj Hy. destruct (Nat.eq_dec j i) as [->|]; [assert (y = x) by congruence; subst; lia|]. specialize (HJ j y ltac:(lia) Hy). lia.
Qed.
End Strings.
