(** Comparators. *)
From Coq Require Import List Arith ZArith QArith Qpower Bool Lia.
From Verif Require Import Spec.Order Spec.Strings Proofs.OrderLib Model.Comparators.
Import ListNotations.
Local Open Scope nat_scope.

(** * Function objects *)
Lemma call_flip : forall T (f : fobj T) x y, call (flip f) x y = call f y x.
Proof.
  induction f as [T f|T f IH|T f IH|A T f IH p]; intros; simpl; auto.
  destruct f; simpl; auto.
Qed.

Lemma call_not_fn : forall T (f : fobj T) x y, call (not_fn f) x y = negb (call f x y).
Proof.
  induction f as [T f|T f IH|T f IH|A T f IH p]; intros; simpl; auto.
  - destruct f; simpl; auto. now rewrite negb_involutive.
  - now rewrite negb_involutive.
Qed.

Lemma call_projection_compare : forall A T (f : fobj T) (p : projection A T) x y,
  call (make_projection_compare f p) x y = call f (project p x) (project p y).
Proof. intros. destruct p; reflexivity. Qed.

Lemma swo_ext : forall T (lt lt' : T -> T -> bool), (forall x y, lt x y = lt' x y) ->
  strict_weak_order lt -> strict_weak_order lt'.
Proof.
  intros T lt lt' E [H1 H2 H3]. constructor; intros.
  - rewrite <- E. auto.
  - rewrite <- !E in *. eapply H2; eauto.
  - rewrite <- !E in *. eapply (H3 x y z); eauto.
Qed.

Lemma swo_conv : forall T (lt : T -> T -> bool), strict_weak_order lt -> strict_weak_order (fun x y => lt y x).
Proof.
  intros T lt [H1 H2 H3]. constructor; intros; eauto.
Qed.

Lemma swo_flip_fn : forall T (f : fobj T), strict_weak_order (call f) -> strict_weak_order (call (flip f)).
Proof. intros. eapply swo_ext; [|apply swo_conv; eauto]. intros. simpl. now rewrite call_flip. Qed.

Lemma swo_projection_compare : forall A T (f : fobj T) (p : projection A T),
  strict_weak_order (call f) -> strict_weak_order (call (make_projection_compare f p)).
Proof.
  intros. apply swo_ext with (by_proj (call f) (project p)).
  - intros. now rewrite call_projection_compare.
  - now apply swo_by_proj.
Qed.

(** * Orders from keys *)
(** A relation that decides "less" for a total preorder on keys. *)
Lemma swo_key : forall T K (lt : T -> T -> bool) (key : T -> K) (R : K -> K -> Prop),
  (forall x y, lt x y = true <-> R (key x) (key y)) ->
  (forall a, ~ R a a) -> (forall a b c, R a b -> R b c -> R a c) -> (forall a b c, R a c -> R a b \/ R b c) ->
  strict_weak_order lt.
Proof.
  intros T K lt key R H Hi Ht Hn.
  assert (Hf : forall x y, lt x y = false <-> ~ R (key x) (key y)).
  { intros. rewrite <- H. destruct (lt x y); split; intros; congruence. }
  constructor.
  - intros. apply Hf, Hi.
  - intros. apply H. apply H in H0, H1. eauto.
  - intros x y z H0 H1 H2 H3. rewrite !Hf in *. split; intros HR.
    + destruct (Hn _ (key y) _ HR); auto.
    + destruct (Hn _ (key y) _ HR); auto.
Qed.

(** * Floating point *)
(** Extended value: rank of the class, then number. *)
Definition rank (x : fp) : Z :=
  match x with Nan s _ => if s then -2 else 2 | Infinite s => if s then -1 else 1 | _ => 0 end%Z.

Lemma total_weight_rank : forall x, total_weight x = rank x.
Proof. intros [[|] ?|[|]|[|]|[|] ? ?]; reflexivity. Qed.
Lemma weak_weight_rank : forall x, weak_weight x = rank x.
Proof. intros [[|] ?|[|]|[|]|[|] ? ?]; reflexivity. Qed.

Lemma fp_value_nonzero : forall neg m e, ~ (fp_value (Finite neg m e) == 0)%Q.
Proof.
  intros neg m e H. simpl in H. apply Qmult_integral in H as [H|H].
  - destruct neg; discriminate H.
  - assert (~ (2 # 1 == 0)%Q) by discriminate. exact (Qpower_not_0 _ e H0 H).
Qed.

Lemma fp_lt_finite : forall x y, isfinite x = true -> isfinite y = true ->
  (fp_lt x y = true <-> (fp_value x < fp_value y)%Q).
Proof.
  intros x y Hx Hy.
  assert (E : fp_lt x y = negb (Qle_bool (fp_value y) (fp_value x))).
  { destruct x, y; simpl in *; congruence. }
  rewrite E. rewrite negb_true_iff. split; intros H.
  - apply Qnot_le_lt. intros HL. apply Qle_bool_iff in HL. congruence.
  - destruct (Qle_bool (fp_value y) (fp_value x)) eqn:E1; auto.
    apply Qle_bool_iff in E1. exfalso. eapply Qlt_not_le; eauto.
Qed.

(** Keys of the total order: rank, value, sign of a zero. *)
Definition tkey (x : fp) : Z * Q * bool := (rank x, fp_value x, match x with Zero s => negb s | _ => true end).
Definition tkey_lt (a b : Z * Q * bool) : Prop :=
  let '(r, v, s) := a in let '(r', v', s') := b in
  (r < r')%Z \/ (r = r' /\ ((v < v')%Q \/ ((v == v')%Q /\ s = false /\ s' = true))).
Definition wkey_lt (a b : Z * Q * bool) : Prop :=
  let '(r, v, s) := a in let '(r', v', s') := b in (r < r')%Z \/ (r = r' /\ (v < v')%Q).

Lemma tkey_irrefl : forall a, ~ tkey_lt a a.
Proof.
  intros [[r v] s] [H|[_ [H|[_ [H1 H2]]]]]; [lia| |congruence]. eapply Qlt_irrefl; eauto.
Qed.
Lemma tkey_trans : forall a b c, tkey_lt a b -> tkey_lt b c -> tkey_lt a c.
Proof.
  intros [[r v] s] [[r' v'] s'] [[r'' v''] s'']. unfold tkey_lt.
  intros [H|[-> H]] [H'|[-> H']]; try (left; lia). right. split; auto.
  destruct H as [H|[E [H1 H2]]], H' as [H'|[E' [H1' H2']]].
  - left. eapply Qlt_trans; eauto.
  - left. now rewrite <- E'.
  - left. now rewrite E.
  - right. congruence.
Qed.
Lemma tkey_negtrans : forall a b c, tkey_lt a c -> tkey_lt a b \/ tkey_lt b c.
Proof.
  intros [[r v] s] [[r' v'] s'] [[r'' v''] s'']. unfold tkey_lt.
  destruct (Z.lt_trichotomy r r') as [Hr|[Hr|Hr]]; [left; left; lia| |intros; right; left; lia].
  subst r'. intros [H|[-> H]]; [right; left; lia|].
  destruct (Q_dec v v') as [[Hv|Hv]|Hv].
  - left. right. auto.
  - right. right. split; auto. left. destruct H as [H|[E _]].
    + eapply Qlt_trans; eauto.
    + now rewrite <- E.
  - destruct H as [H|[E [H1 H2]]].
    + right. right. split; auto. left. now rewrite <- Hv.
    + destruct s'; [left|right]; right; split; auto; right; split; auto.
      rewrite <- Hv. auto.
Qed.
Lemma wkey_irrefl : forall a, ~ wkey_lt a a.
Proof. intros [[r v] s] [H|[_ H]]; [lia|]. eapply Qlt_irrefl; eauto. Qed.
Lemma wkey_trans : forall a b c, wkey_lt a b -> wkey_lt b c -> wkey_lt a c.
Proof.
  intros [[r v] s] [[r' v'] s'] [[r'' v''] s'']. unfold wkey_lt.
  intros [H|[-> H]] [H'|[-> H']]; try (left; lia). right. split; auto. eapply Qlt_trans; eauto.
Qed.
Lemma wkey_negtrans : forall a b c, wkey_lt a c -> wkey_lt a b \/ wkey_lt b c.
Proof.
  intros [[r v] s] [[r' v'] s'] [[r'' v''] s'']. unfold wkey_lt.
  destruct (Z.lt_trichotomy r r') as [Hr|[Hr|Hr]]; [left; left; lia| |intros; right; left; lia].
  subst r'. intros [H|[-> H]]; [right; left; lia|].
  destruct (Q_dec v v') as [[Hv|Hv]|Hv].
  - left. right. auto.
  - right. right. split; auto. eapply Qlt_trans; eauto.
  - right. right. split; auto. now rewrite <- Hv.
Qed.

Lemma rank_finite : forall x, isfinite x = true <-> rank x = 0%Z.
Proof. intros [[|] ?|[|]|[|]|[|] ? ?]; simpl; split; intros; congruence || reflexivity. Qed.

Lemma total_less_key : forall x y, total_less x y = true <-> tkey_lt (tkey x) (tkey y).
Proof.
  intros x y. unfold total_less. rewrite !total_weight_rank.
  destruct (isfinite x && isfinite y) eqn:F.
  - apply andb_true_iff in F as [Fx Fy]. pose proof (proj1 (rank_finite x) Fx) as Rx.
    pose proof (proj1 (rank_finite y) Fy) as Ry. unfold tkey_lt, tkey. rewrite Rx, Ry.
    destruct (fp_is_zero x && fp_is_zero y) eqn:Z0.
    + destruct x as [|?|sx|]; try discriminate Z0. destruct y as [|?|sy|]; try discriminate Z0.
      simpl. split.
      * intros H. right. split; auto. right. split; [reflexivity|]. destruct sx, sy; simpl in *; try discriminate; auto.
      * intros [H|[_ [H|[_ [H1 H2]]]]]; [lia| |]. { exfalso. now apply (Qlt_irrefl 0). }
        destruct sx, sy; simpl in *; try discriminate; auto.
    + rewrite fp_lt_finite by auto. split.
      * intros H. right. auto.
      * intros [H|[_ [H|[E [H1 H2]]]]]; [lia|auto|]. exfalso.
        destruct x as [|?|sx|nx mx ex]; try discriminate H1; try discriminate Fx.
        destruct y as [|?|sy|ny my ey]; try discriminate Fy; try discriminate Z0.
        symmetry in E. now apply fp_value_nonzero in E.
  - assert (Hs : forall v v' s s', tkey_lt (rank x, v, s) (rank y, v', s') -> rank x = rank y -> v = v' -> s = s' -> False).
    { intros v v' s s' H E -> ->. rewrite E in H. exact (tkey_irrefl _ H). }
    rewrite Z.ltb_lt. split.
    + intros H. left. auto.
    + intros [H|[E H]]; auto. exfalso.
      assert (V : forall z, rank z <> 0%Z -> fp_value z = 0%Q /\ match z with Zero s => negb s | _ => true end = true).
      { intros [[|] ?|[|]|[|]|[|] ? ?]; simpl; intros; try congruence; auto. }
      assert (rank x <> 0 /\ rank y <> 0)%Z.
      { apply andb_false_iff in F. destruct F as [F|F]; split; intros E0.
        - apply rank_finite in E0. congruence.
        - rewrite <- E in E0. apply rank_finite in E0. congruence.
        - rewrite E in E0. apply rank_finite in E0. congruence.
        - apply rank_finite in E0. congruence. }
      destruct (V x) as [V1 V2]; [tauto|]. destruct (V y) as [V3 V4]; [tauto|].
      rewrite V1, V2, V3, V4 in H. destruct H as [H|[_ [H _]]]; [|discriminate].
      now apply (Qlt_irrefl 0).
Qed.

Lemma weak_less_key : forall x y, weak_less x y = true <-> wkey_lt (tkey x) (tkey y).
Proof.
  intros x y. unfold weak_less. rewrite !weak_weight_rank.
  destruct (isfinite x && isfinite y) eqn:F.
  - apply andb_true_iff in F as [Fx Fy]. pose proof (proj1 (rank_finite x) Fx) as Rx.
    pose proof (proj1 (rank_finite y) Fy) as Ry. unfold wkey_lt, tkey. rewrite Rx, Ry.
    rewrite fp_lt_finite by auto. split; auto. intros [H|[_ H]]; [lia|auto].
  - rewrite Z.ltb_lt. split.
    + intros H. left. auto.
    + intros [H|[E H]]; auto. exfalso.
      assert (V : forall z, rank z <> 0%Z -> fp_value z = 0%Q).
      { intros [[|] ?|[|]|[|]|[|] ? ?]; simpl; intros; try congruence; auto. }
      assert (rank x <> 0 /\ rank y <> 0)%Z.
      { apply andb_false_iff in F. destruct F as [F|F]; split; intros E0.
        - apply rank_finite in E0. congruence.
        - rewrite <- E in E0. apply rank_finite in E0. congruence.
        - rewrite E in E0. apply rank_finite in E0. congruence.
        - apply rank_finite in E0. congruence. }
      rewrite (V x), (V y) in H by tauto. now apply (Qlt_irrefl 0).
Qed.

Lemma total_less_swo : strict_weak_order total_less.
Proof. apply (swo_key _ _ _ tkey tkey_lt total_less_key tkey_irrefl tkey_trans tkey_negtrans). Qed.
Lemma weak_less_swo : strict_weak_order weak_less.
Proof. apply (swo_key _ _ _ tkey wkey_lt weak_less_key wkey_irrefl wkey_trans wkey_negtrans). Qed.

Lemma total_greater_conv : forall x y, total_greater x y = total_less y x.
Proof.
  intros. unfold total_greater, total_less. rewrite (andb_comm (isfinite y)), (andb_comm (fp_is_zero y)). reflexivity.
Qed.
Lemma weak_greater_conv : forall x y, weak_greater x y = weak_less y x.
Proof. intros. unfold weak_greater, weak_less. rewrite (andb_comm (isfinite y)). reflexivity. Qed.
Lemma partial_greater_conv : forall x y, partial_greater x y = partial_less y x.
Proof. reflexivity. Qed.

Lemma partial_less_key : forall x y, partial_less x y = true <->
  isnan x = false /\ isnan y = false /\ wkey_lt (tkey x) (tkey y).
Proof.
  intros x y. rewrite <- weak_less_key. unfold partial_less, weak_less.
  destruct x as [[|] ?|[|]|[|]|[|] ? ?], y as [[|] ?|[|]|[|]|[|] ? ?]; simpl; tauto || (split; intros; try tauto; intuition congruence).
Qed.

Lemma partial_less_strict : (forall x, partial_less x x = false) /\
  (forall x y z, partial_less x y = true -> partial_less y z = true -> partial_less x z = true).
Proof.
  split.
  - intros x. destruct (partial_less x x) eqn:E; auto. apply partial_less_key in E as (_ & _ & E).
    exfalso. exact (wkey_irrefl _ E).
  - intros x y z H1 H2. rewrite partial_less_key in *. destruct H1 as (? & ? & ?), H2 as (? & ? & ?).
    repeat split; auto. eapply wkey_trans; eauto.
Qed.

(** * Lexicographic comparison *)
Lemma lexicographical_compare_swo : forall T (less : T -> T -> bool),
  strict_weak_order less -> strict_weak_order (lexicographical_compare less).
Proof.
  intros T less HW. constructor.
  - induction x; simpl; auto. now rewrite (lt_irrefl less HW).
  - induction x as [|a x IH]; destruct y as [|b y], z as [|c z]; simpl; try congruence; auto.
    destruct (less a b) eqn:E1.
    + intros _. destruct (less b c) eqn:E2.
      * rewrite (lt_trans less HW a b c); auto.
      * destruct (less c b) eqn:E3; [congruence|]. intros _.
        now rewrite (lt_le_trans less HW a b c).
    + destruct (less b a) eqn:E1'; [congruence|]. intros H1.
      destruct (less b c) eqn:E2.
      * intros _. now rewrite (le_lt_trans less HW a b c).
      * destruct (less c b) eqn:E3; [congruence|]. intros H2.
        destruct (swo_incomp _ HW a b c) as [-> ->]; auto. eauto.
  - induction x as [|a x IH]; destruct y as [|b y], z as [|c z]; simpl; try congruence; auto.
    destruct (less a b) eqn:E1, (less b a) eqn:E2, (less b c) eqn:E3, (less c b) eqn:E4; try congruence.
    destruct (swo_incomp _ HW a b c) as [-> ->]; auto. eauto.
Qed.

Lemma lexicographical_compare_equiv : forall T (less : T -> T -> bool) s t,
  (lexicographical_compare less s t = false /\ lexicographical_compare less t s = false) <->
  Forall2 (fun a b => less a b = false /\ less b a = false) s t.
Proof.
  induction s as [|a s IH]; intros [|b t]; simpl.
  - split; auto.
  - split; [intros [H _]; discriminate|]. intros H. inversion H.
  - split; [intros [_ H]; discriminate|]. intros H. inversion H.
  - destruct (less a b) eqn:E1, (less b a) eqn:E2.
    + split; [intros [H _]; discriminate|]. intros H. inversion H; subst. destruct H3; congruence.
    + split; [intros [H _]; discriminate|]. intros H. inversion H; subst. destruct H3; congruence.
    + split; [intros [_ H]; discriminate|]. intros H. inversion H; subst. destruct H3; congruence.
    + rewrite IH. split; intros H; [constructor; auto|now inversion H].
Qed.

Lemma ltb_swo : strict_weak_order Nat.ltb.
Proof.
  apply (swo_key _ _ _ (fun x => x) lt). { apply Nat.ltb_lt. } all: intros; lia.
Qed.

Lemma char_less_swo : forall tolower, strict_weak_order (char_less tolower).
Proof. intros. change (char_less tolower) with (by_proj Nat.ltb tolower). apply swo_by_proj, ltb_swo. Qed.

Lemma case_insensitive_less_swo : forall tolower, strict_weak_order (case_insensitive_less tolower).
Proof. intros. apply lexicographical_compare_swo, char_less_swo. Qed.

Lemma case_insensitive_less_equiv : forall tolower s t,
  (case_insensitive_less tolower s t = false /\ case_insensitive_less tolower t s = false) <->
  map tolower s = map tolower t.
Proof.
  intros. unfold case_insensitive_less. rewrite lexicographical_compare_equiv.
  revert t. induction s as [|a s IH]; intros [|b t]; simpl; split; intros H; try discriminate; try (inversion H; fail); auto.
  - inversion H; subst. destruct H3 as [H3 H4]. unfold char_less in *. apply Nat.ltb_ge in H3, H4.
    f_equal; [lia|]. now apply IH.
  - inversion H. constructor; [|now apply IH]. unfold char_less. rewrite !Nat.ltb_ge. lia.
Qed.

Lemma case_insensitive_less_lex : forall tolower s t,
  case_insensitive_less tolower s t = true <-> lex lt (map tolower s) (map tolower t).
Proof.
  intros tolower. induction s as [|a s IH]; intros [|b t]; simpl.
  - split; [discriminate|]. intros H; inversion H.
  - split; auto. constructor.
  - split; [discriminate|]. intros H; inversion H.
  - unfold case_insensitive_less in *. simpl. unfold char_less at 1 2.
    destruct (Nat.ltb_spec (tolower a) (tolower b)) as [L|L].
    + split; auto. intros _. now constructor.
    + destruct (Nat.ltb_spec (tolower b) (tolower a)) as [L'|L'].
      * split; [discriminate|]. intros H. inversion H; subst; lia.
      * assert (E : tolower a = tolower b) by lia. rewrite IH, E. split.
        -- intros. now constructor.
        -- intros H. inversion H; subst; auto; lia.
Qed.

Lemma total_less_meaning : forall x y, total_less x y = true <->
  (isnan x = true /\ signbit x = true /\ ~ (isnan y = true /\ signbit y = true)) \/
  (isnan y = true /\ signbit y = false /\ ~ (isnan x = true /\ signbit x = false)) \/
  (isnan x = false /\ isnan y = false /\ (fp_lt x y = true \/ (x = Zero true /\ y = Zero false))).
Proof.
  intros [[|] ?|[|]|[|]|[|] ? ?] [[|] ?|[|]|[|]|[|] ? ?]; cbn [total_less isfinite isnan signbit andb fp_is_zero total_weight negb];
  cbn; split; intros; try discriminate; try tauto; intuition (try congruence).
Qed.

Lemma weak_less_meaning : forall x y, weak_less x y = true <->
  (isnan x = true /\ signbit x = true /\ ~ (isnan y = true /\ signbit y = true)) \/
  (isnan y = true /\ signbit y = false /\ ~ (isnan x = true /\ signbit x = false)) \/
  (isnan x = false /\ isnan y = false /\ fp_lt x y = true).
Proof.
  intros [[|] ?|[|]|[|]|[|] ? ?] [[|] ?|[|]|[|]|[|] ? ?];
  cbn; split; intros; try discriminate; try tauto; intuition (try congruence).
Qed.
