(** Proofs about metrics_tools.h. *)
From Coq Require Import ZArith List Bool Lia.
From Verif Require Import Model.MetricsTools.
Import ListNotations.
Local Open Scope Z_scope.

Lemma index_of_present : forall needle haystack, In needle haystack ->
  exists i : nat, index_of needle haystack = Z.of_nat i /\ nth_error haystack i = Some needle /\ ~ In needle (firstn i haystack).
Proof.
  induction haystack as [|h l IH]; intros HI; [destruct HI|]. simpl. destruct (Nat.eqb_spec needle h) as [->|HN].
  - exists 0%nat. repeat split; auto.
  - destruct HI as [->|HI]; [now destruct HN|]. destruct (IH HI) as (i & E & H1 & H2). exists (S i). rewrite E. repeat split; auto; [lia|].
    simpl. intros [->|H]; auto.
Qed.

Lemma index_of_absent : forall needle haystack, ~ In needle haystack -> index_of needle haystack = Z.of_nat (length haystack) - 1.
Proof.
  induction haystack as [|h l IH]; intros HI; [reflexivity|]. cbn [index_of length]. destruct (Nat.eqb_spec needle h) as [->|HN].
  - destruct HI. now left.
  - rewrite IH; [lia|]. intros H. apply HI. now right.
Qed.

Lemma get_tag_present : forall V (mm : @metrics V) tag, In tag (map fst mm) ->
  exists m before after, get_tag tag mm = Some m /\ fst m = tag /\ mm = before ++ m :: after /\ ~ In tag (map fst before).
Proof.
  unfold metrics, metric. intros V mm tag HI. destruct (index_of_present _ _ HI) as (i & E & H1 & H2). unfold get_tag. rewrite E.
  destruct (Z.ltb_spec (Z.of_nat i) 0); [lia|]. rewrite Nat2Z.id. unfold get. rewrite nth_error_map in H1.
  destruct (nth_error mm i) as [m|] eqn:EN; [|discriminate]. simpl in H1. inversion H1 as [HT].
  apply nth_error_split in EN as (before & after & EM & EL). exists m, before, after. repeat split; auto.
  - subst mm i. rewrite nth_error_app2, Nat.sub_diag by auto. reflexivity.
  - subst mm i. rewrite firstn_map, firstn_app, Nat.sub_diag, firstn_all, firstn_O, app_nil_r in H2. now rewrite HT.
Qed.

Lemma get_tag_absent : forall V (mm : @metrics V) (m : metric) tag, ~ In tag (map fst (mm ++ [m])) -> get_tag tag (mm ++ [m]) = Some m /\ fst m <> tag.
Proof.
  intros V mm m tag HI. split.
  - unfold get_tag. rewrite index_of_absent by auto. rewrite map_length, app_length. simpl length.
    destruct (Z.ltb_spec (Z.of_nat (length mm + 1) - 1) 0); [lia|]. unfold get.
    replace (Z.to_nat (Z.of_nat (length mm + 1) - 1)) with (length mm) by lia. rewrite nth_error_app2, Nat.sub_diag by lia. reflexivity.
  - intros E. apply HI. rewrite map_app. apply in_or_app. right. now left.
Qed.

Lemma is_in_pack_spec : forall value values, is_in_pack value values = true <-> In value values.
Proof.
  induction values as [|v l IH]; simpl; [split; [discriminate|tauto]|]. destruct (Nat.eqb_spec v value); [tauto|]. rewrite IH. tauto.
Qed.

Lemma any_spec : forall l, l <> [] -> exists b, any l = Some b /\ (b = true <-> In true l).
Proof.
  intros [|h l] HN; [now destruct HN|]. exists (any_from h l). split; auto. clear HN. revert h. induction l as [|b l IH]; intros h.
  - simpl. intuition.
  - cbn [any_from]. rewrite orb_true_iff, IH. simpl. tauto.
Qed.

Lemma all_spec : forall l, l <> [] -> exists b, all l = Some b /\ (b = true <-> ~ In false l).
Proof.
  intros [|h l] HN; [now destruct HN|]. exists (all_from h l). split; auto. clear HN. revert h. induction l as [|b l IH]; intros h.
  - simpl. destruct h; intuition discriminate.
  - cbn [all_from]. rewrite andb_true_iff, IH. simpl. destruct h; intuition discriminate.
Qed.
