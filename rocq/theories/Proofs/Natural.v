(** natural_less on strings whose digits are all at the end. *)
From Coq Require Import List Arith Bool Lia.
From Verif Require Import Spec.Order Spec.Strings Model.Comparators.
Import ListNotations.

Lemma isdigit_spec : forall c, isdigit c = true <-> digit c.
Proof. intros. unfold isdigit, digit. rewrite andb_true_iff, !Nat.leb_le. tauto. Qed.
Lemma isdigit_false : forall c, isdigit c = false <-> ~ digit c.
Proof. intros. rewrite <- isdigit_spec. destruct (isdigit c); split; congruence || tauto. Qed.

(** * The fuel is never exhausted *)
Lemma compare_rest_inr : forall s1 s2 t1 t2, compare_rest s1 s2 = inr (t1, t2) -> t1 = [].
Proof.
  induction s1; intros [|b s2] t1 t2; simpl; intros H; try congruence.
  destruct (negb (a =? b)); try congruence. eauto.
Qed.
Lemma compare_rest_inl : forall s1 s2 r, compare_rest s1 s2 = inl r -> r <> OutOfFuel.
Proof.
  induction s1; intros [|b s2] r; simpl; intros H; try congruence.
  destruct (negb (a =? b)); try congruence. eauto.
Qed.

Lemma natural_less_impl_fuel : forall fuel s1 s2, length s1 <= fuel -> natural_less_impl fuel s1 s2 <> OutOfFuel.
Proof.
  induction fuel as [|fuel IH]; intros [|a s1] [|b s2] HL; cbn [natural_less_impl]; try congruence; [simpl in HL; lia|].
  set (x := skip_digits (a :: s1)). set (y := skip_digits (b :: s2)). cbv zeta.
  destruct (_ && _).
  - set (u := skip_zeros _ (a :: s1)). set (v := skip_zeros _ (b :: s2)).
    destruct (negb _); try congruence. destruct (_ =? 0); try congruence.
    destruct (compare_rest u v) as [r|[t1 t2]] eqn:E. { now apply compare_rest_inl in E. }
    apply compare_rest_inr in E. subst t1. destruct t2; simpl; congruence.
  - simpl natural_step. destruct (negb (a =? b)); try congruence. apply IH. simpl in HL. lia.
Qed.
Lemma natural_less_fuel : forall s1 s2, natural_less s1 s2 <> OutOfFuel.
Proof. intros. apply natural_less_impl_fuel. auto. Qed.

(** * Numbers *)
Definition step (a c : nat) : nat := 10 * a + (c - 48).
Lemma fold_step : forall d a, fold_left step d a = a * 10 ^ length d + fold_left step d 0.
Proof.
  induction d as [|c d IH]; intros a. { simpl. lia. }
  cbn [fold_left length]. rewrite IH. rewrite (IH (step 0 c)). rewrite Nat.pow_succ_r'. unfold step. nia.
Qed.
Lemma number_cons : forall c d, number (c :: d) = (c - 48) * 10 ^ length d + number d.
Proof. intros. unfold number. change (fun a c => 10 * a + (c - 48)) with step. cbn [fold_left]. now rewrite fold_step. Qed.
Lemma number_bound : forall d, Forall digit d -> number d < 10 ^ length d.
Proof.
  induction 1 as [|c d Hc Hd IH]. { unfold number. simpl. lia. }
  rewrite number_cons. cbn [length]. rewrite Nat.pow_succ_r'. unfold digit in Hc. nia.
Qed.

Lemma skip_zeros_spec : forall d, Forall digit d -> exists z d', d = z ++ d' /\ skip_zeros (length d) d = d' /\
  number d' = number d /\ Forall digit d' /\ (forall c t, d' = c :: t -> 48 < c).
Proof.
  induction 1 as [|c d Hc Hd (z & d' & E & IH & Hn & Hf & Hz)]; simpl.
  - exists [], []. repeat split; auto. congruence.
  - destruct (Nat.eqb_spec c 48) as [->|Hne]; simpl.
    + exists (48 :: z), d'. rewrite IH, E. repeat split; auto. rewrite <- E. rewrite number_cons. simpl. lia.
    + exists [], (c :: d). repeat split; auto. intros c0 t [= <- <-]. unfold digit in Hc. lia.
Qed.

Lemma number_size : forall d1 d2, Forall digit d1 -> Forall digit d2 ->
  (forall c t, d2 = c :: t -> 48 < c) -> length d1 < length d2 -> number d1 < number d2.
Proof.
  intros d1 d2 H1 H2 Hz HL. destruct d2 as [|c d2]; [simpl in HL; lia|].
  specialize (Hz c d2 eq_refl). rewrite number_cons. apply number_bound in H1.
  assert (10 ^ length d1 <= 10 ^ length d2) by (apply Nat.pow_le_mono_r; simpl in HL; lia). nia.
Qed.

Lemma compare_rest_number : forall d1 d2, Forall digit d1 -> Forall digit d2 -> length d1 = length d2 ->
  (compare_rest d1 d2 = inr ([], []) /\ number d1 = number d2) \/
  (exists b, compare_rest d1 d2 = inl (Answer b) /\ (b = true <-> number d1 < number d2)).
Proof.
  induction d1 as [|a d1 IH]; intros [|b d2] H1 H2 HL; simpl in HL; try lia; [left; auto|].
  inversion H1; subst. inversion H2; subst. simpl. rewrite !number_cons.
  replace (length d2) with (length d1) by lia.
  pose proof (number_bound _ H4) as B1. pose proof (number_bound _ H6) as B2. replace (length d2) with (length d1) in B2 by lia.
  unfold digit in H3, H5. destruct (Nat.eqb_spec a b) as [<-|Hne]; simpl.
  - assert (HL' : length d1 = length d2) by lia. destruct (IH d2 H4 H6 HL') as [[E E']|[r [E E']]]; rewrite E; [left; split; auto; lia|right].
    exists r. split; auto. rewrite E'. lia.
  - right. eexists. split; [reflexivity|]. rewrite Nat.ltb_lt. nia.
Qed.

(** * Strings with trailing digits only *)
Definition keyof (p d : list nat) : list token :=
  map Char p ++ match d with [] => [] | _ => [Num (number d)] end.

Lemma reads_digits : forall d k, Forall digit d -> d <> [] -> reads d k -> k = [Num (number d)].
Proof.
  intros d k Hd Hne HR. inversion HR; subst.
  - congruence.
  - inversion Hd; subst. tauto.
  - destruct s as [|c s].
    + inversion H2; subst. { now rewrite app_nil_r. } destruct d; simpl in *; congruence.
    + exfalso. apply Forall_app in Hd as [_ Hd]. inversion Hd; subst. eapply H1; eauto.
Qed.

Lemma reads_keyof : forall p d k, Forall (fun c => ~ digit c) p -> Forall digit d -> reads (p ++ d) k -> k = keyof p d.
Proof.
  induction p as [|c p IH]; intros d k Hp Hd HR; unfold keyof; simpl in *.
  - destruct d as [|x d]; [|apply reads_digits; auto; congruence].
    inversion HR; auto. destruct d; simpl in *; congruence.
  - inversion Hp; subst. inversion HR; subst.
    + f_equal. apply IH; auto.
    + destruct d0; [congruence|]. simpl in H. inversion H; subst.
      match goal with H : Forall digit (_ :: _) |- _ => inversion H; subst end. tauto.
Qed.

Lemma skip_digits_all : forall d, Forall digit d -> skip_digits d = [].
Proof. induction 1; simpl; auto. now rewrite (proj2 (isdigit_spec x) H). Qed.

Lemma skip_digits_not : forall c s, ~ digit c -> skip_digits (c :: s) = c :: s.
Proof. intros. simpl. now rewrite (proj2 (isdigit_false c) H). Qed.

Lemma lex_cons : forall x y s t, (forall z, ~ token_lt z z) -> lex token_lt (x :: s) (y :: t) <-> token_lt x y \/ (x = y /\ lex token_lt s t).
Proof.
  intros x y s t Hi. split.
  - intros H. inversion H; subst; auto.
  - intros [H|[-> H]]; [now apply lex_lt|now apply lex_eq].
Qed.
Lemma token_irrefl : forall z, ~ token_lt z z.
Proof. intros [|]; simpl; lia. Qed.
Lemma lex_nil_r : forall (s : list token), ~ lex token_lt s [].
Proof. intros s H. inversion H. Qed.

Lemma natural_less_impl_spec : forall p1 p2 d1 d2 fuel,
  Forall (fun c => ~ digit c) p1 -> Forall (fun c => ~ digit c) p2 -> Forall digit d1 -> Forall digit d2 ->
  length (p1 ++ d1) <= fuel ->
  exists b, natural_less_impl fuel (p1 ++ d1) (p2 ++ d2) = Answer b /\
    (b = true <-> lex token_lt (keyof p1 d1) (keyof p2 d2)).
Proof.
  induction p1 as [|c1 p1 IH]; intros p2 d1 d2 fuel H1 H2 H3 H4 HF.
  - destruct p2 as [|c2 p2].
    + (* two numbers, or an empty string *)
      simpl app in *. destruct d1 as [|a d1], d2 as [|b d2].
      * exists false. split; [destruct fuel; auto|]. split; [discriminate|]. intros H; inversion H.
      * exists true. split; [destruct fuel; auto|]. unfold keyof; simpl. split; auto. intros _. constructor.
      * exists false. split; [destruct fuel; auto|]. unfold keyof; simpl. split; [discriminate|]. intros H; inversion H.
      * destruct fuel as [|fuel]; [simpl in HF; lia|]. cbn [natural_less_impl].
        rewrite !skip_digits_all by auto. simpl (length []).
        replace (negb (0 =? length (a :: d1)) && negb (0 =? length (b :: d2))) with true by reflexivity.
        rewrite !Nat.sub_0_r. cbv zeta.
        destruct (skip_zeros_spec _ H3) as (z1 & e1 & E1 & -> & N1 & F1 & Z1).
        destruct (skip_zeros_spec _ H4) as (z2 & e2 & E2 & -> & N2 & F2 & Z2).
        assert (HK : lex token_lt (keyof [] (a :: d1)) (keyof [] (b :: d2)) <-> number e1 < number e2).
        { unfold keyof. simpl map. simpl app. rewrite lex_cons by exact token_irrefl. simpl token_lt. rewrite <- N1, <- N2.
          split; auto. intros [H|[_ H]]; auto. inversion H. }
        destruct (Nat.eqb_spec (length e1) (length e2)) as [HL|HL]; simpl negb; cbv iota.
        -- destruct (Nat.eqb_spec (length e1) 0) as [H0|H0].
           { exists false. split; auto. rewrite HK. destruct e1, e2; simpl in *; lia || (split; [discriminate|lia]). }
           destruct (compare_rest_number e1 e2 F1 F2 HL) as [[-> E]|[r [-> E]]].
           ++ exists false. split; auto. rewrite HK. split; [discriminate|lia].
           ++ exists r. split; auto. now rewrite HK.
        -- eexists. split; [reflexivity|]. rewrite HK. rewrite Nat.ltb_lt. split.
           ++ intros HLT. apply number_size; auto.
           ++ intros HN. destruct (Nat.lt_trichotomy (length e1) (length e2)) as [?|[?|?]]; try lia.
              assert (number e2 < number e1) by (apply number_size; auto). lia.
    + (* digits against a character *)
      inversion H2; subst. simpl app in *. destruct d1 as [|a d1].
      * exists true. split; [destruct fuel; auto|]. split; auto. intros _. unfold keyof; simpl. constructor.
      * destruct fuel as [|fuel]; [simpl in HF; lia|]. cbn [natural_less_impl].
        rewrite (skip_digits_not c2) by auto. rewrite Nat.eqb_refl. rewrite andb_false_r.
        inversion H3; subst. simpl natural_step.
        destruct (Nat.eqb_spec a c2) as [->|Hne]; [tauto|]. simpl negb. cbv iota.
        eexists. split; [reflexivity|]. rewrite Nat.ltb_lt. unfold keyof. simpl app. simpl map. simpl app.
        rewrite lex_cons by exact token_irrefl. simpl token_lt. unfold digit in *. split; [lia|].
        intros [?|[? _]]; [lia|discriminate].
  - inversion H1; subst. simpl app in *. destruct p2 as [|c2 p2].
    + simpl app in *. destruct d2 as [|b d2].
      * exists false. split; [destruct fuel; auto|]. split; [discriminate|]. unfold keyof. simpl. intros H; inversion H.
      * destruct fuel as [|fuel]; [simpl in HF; lia|]. cbn [natural_less_impl].
        rewrite (skip_digits_not c1) by auto. rewrite Nat.eqb_refl. simpl (negb true && _). cbv iota.
        inversion H4; subst. simpl natural_step.
        destruct (Nat.eqb_spec c1 b) as [->|Hne]; [tauto|]. simpl negb. cbv iota.
        eexists. split; [reflexivity|]. rewrite Nat.ltb_lt. unfold keyof. simpl map. simpl app.
        rewrite lex_cons by exact token_irrefl. simpl token_lt. unfold digit in *. split; [lia|].
        intros [?|[? _]]; [lia|discriminate].
    + inversion H2; subst. destruct fuel as [|fuel]; [simpl in HF; lia|]. simpl app. cbn [natural_less_impl].
      rewrite (skip_digits_not c1) by auto. rewrite Nat.eqb_refl. simpl (negb true && _). cbv iota.
      simpl natural_step.
      assert (HK : lex token_lt (keyof (c1 :: p1) d1) (keyof (c2 :: p2) d2) <->
        c1 < c2 \/ (c1 = c2 /\ lex token_lt (keyof p1 d1) (keyof p2 d2))).
      { unfold keyof. simpl map. simpl app. rewrite lex_cons by exact token_irrefl. simpl token_lt.
        split; (intros [?|[E ?]]; [auto|right; split; auto; congruence]). }
      destruct (Nat.eqb_spec c1 c2) as [->|Hne]; simpl negb; cbv iota.
      * destruct (IH p2 d1 d2 fuel) as (b & -> & Hb); auto. { simpl in HF. lia. }
        exists b. split; auto. rewrite HK, Hb. split; auto. intros [?|[_ ?]]; [lia|auto].
      * eexists. split; [reflexivity|]. rewrite HK, Nat.ltb_lt. split; auto. intros [?|[? _]]; [auto|lia].
Qed.

Lemma natural_less_trailing : forall p1 p2 d1 d2 k1 k2,
  Forall (fun c => ~ digit c) p1 -> Forall (fun c => ~ digit c) p2 -> Forall digit d1 -> Forall digit d2 ->
  reads (p1 ++ d1) k1 -> reads (p2 ++ d2) k2 ->
  exists b, natural_less (p1 ++ d1) (p2 ++ d2) = Answer b /\ (b = true <-> lex token_lt k1 k2).
Proof.
  intros p1 p2 d1 d2 k1 k2 H1 H2 H3 H4 R1 R2. apply reads_keyof in R1, R2; auto. subst.
  apply natural_less_impl_spec; auto.
Qed.
