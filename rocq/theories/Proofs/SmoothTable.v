(** The orders of the trees of smoothsort stay within the table of Leonardo numbers. *)
From Coq Require Import List Arith Lia Bool NArith.
From Verif Require Import Lang.Mem Model.Smooth Spec.Order Proofs.Wp Proofs.OrderLib Proofs.Basic Proofs.Smooth.
Import ListNotations.

Fixpoint leo2 (n : nat) : N * N := match n with 0 => (1, 1)%N | S n => let '(a, b) := leo2 n in (b, b + a + 1)%N end.
Lemma leo2_leo : forall n, leo2 n = (N.of_nat (leo n), N.of_nat (leo (S n))).
Proof.
  induction n as [|n IH]. { rewrite leo_0, leo_1. reflexivity. }
  cbn [leo2]. rewrite IH, leo_SS. rewrite !Nat2N.inj_add. reflexivity.
Qed.

Lemma leonardo_table_leo : forall i, i < 92 -> nth_error leonardo_table i = Some (N.of_nat (leo i)).
Proof.
  assert (forallb (fun i => match nth_error leonardo_table i with Some x => N.eqb x (fst (leo2 i)) | None => false end) (seq 0 92) = true) as H
    by (vm_compute; reflexivity).
  intros i Hi. rewrite forallb_forall in H. specialize (H i). rewrite leo2_leo in H. cbn [fst] in H.
  destruct (nth_error leonardo_table i).
  - f_equal. apply N.eqb_eq, H. apply in_seq. lia.
  - discriminate H. apply in_seq. lia.
Qed.

Lemma leo_bound : forall k, (N.of_nat (leo k) < 2 ^ 64)%N -> k < 92.
Proof.
  intros k Hk. destruct (Nat.lt_ge_cases k 92) as [|H]; auto. exfalso. apply leo_mono in H.
  assert (2 ^ 64 < N.of_nat (leo 92))%N. { replace (N.of_nat (leo 92)) with (fst (leo2 92)) by (now rewrite leo2_leo). reflexivity. }
  lia.
Qed.

Lemma bit_in_orders : forall ts k i, bit i ts = true -> In (k + i) (orders ts k).
Proof.
  induction ts as [|t ts IH]; intros k [|i] H; try discriminate.
  - change (t = true) in H. subst t. left. lia.
  - change (bit i ts = true) in H. replace (k + S i) with (S k + i) by lia. apply (IH (S k)) in H. cbn [orders]. destruct t; [right|]; exact H.
Qed.

Lemma chain_order : forall os f c k, chain f c os -> In k os -> f + leo k <= c.
Proof.
  induction os as [|k0 os IH]; intros f c k HC Hin; [destruct Hin|]. destruct HC as [H1 H2]. pose proof (chain_le _ _ _ H2).
  destruct Hin as [->|Hin]; [lia|]. specialize (IH _ _ _ H2 Hin). lia.
Qed.

Lemma add_chain : forall c sh sh', wfs sh -> chain 0 c (orders (fst sh) (snd sh)) -> shape_add sh = Some sh' ->
  wfs sh' /\ chain 0 (S c) (orders (fst sh') (snd sh')).
Proof.
  intros c sh sh' HW HC E. destruct (shape_add_spec sh HW) as (ts1 & k1 & E1 & HW1 & HO). rewrite E in E1. injection E1 as ->.
  split. { right. exists ts1. auto. }
  cbn [fst snd orders]. destruct HO as [[Hk1 EO]|(k0 & -> & EO)].
  - assert (leo k1 = 1) as Hl by (destruct k1 as [|[|k1]]; auto; lia). rewrite EO. cbn [chain]. rewrite Hl. replace (S c - 1) with c by lia. split; [lia|auto].
  - rewrite EO in HC. destruct HC as (C1 & C2 & C3). pose proof (leo_SS k0). cbn [chain].
    replace (S c - leo (S (S k0))) with (c - leo k0 - leo (S k0)) by lia. split; [lia|auto].
Qed.

Lemma remove_chain : forall c sh, 0 < c -> headed sh -> chain 0 c (orders (fst sh) (snd sh)) ->
  headed (shape_remove sh) /\ chain 0 (c - 1) (orders (fst (shape_remove sh)) (snd (shape_remove sh))).
Proof.
  intros c [ts k] Hc HH HC. cbn [fst snd] in *. destruct HH as [HH|(ts' & E)].
  { cbn [fst snd] in HH. rewrite HH in HC. simpl in HC. lia. }
  cbn [fst] in E. subst ts. cbn [orders] in *. destruct HC as [C1 C2]. unfold shape_remove. destruct (Nat.leb_spec k 1).
  - assert (leo k = 1) as Hl by (destruct k as [|[|k]]; auto; lia). rewrite Hl in *. cbn [tl].
    destruct (orders ts' (S k)) as [|r rest'] eqn:Er.
    + pose proof (scan_nil _ _ Er) as HN. rewrite HN. split; auto. left. auto.
    + destruct (scan_spec ts' (S k)) as (ts1 & k1 & -> & Eo & _); [congruence|]. cbn [fst snd orders]. rewrite <- Eo, Er. split; auto. right. exists ts1. auto.
  - destruct k as [|[|k]]; try lia. cbn [fst snd tl]. replace (S (S k) - 2) with k by lia. split; [right; exists (true :: false :: ts'); reflexivity|].
    cbn [orders chain]. pose proof (leo_SS k). 
    replace (c - 1 - leo k - leo (S k)) with (c - leo (S (S k))) by lia. split; [lia|split; [lia|exact C2]].
Qed.
