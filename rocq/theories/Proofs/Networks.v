(** The tables of sorting_network_sorter, collected. *)
From Coq Require Import List Arith Lia Bool NArith.
From Verif Require Import Spec.Order Spec.Sorts Lang.Mem Model.NetworkTables Model.Networks
  Proofs.NetLib Proofs.NetCheck Proofs.NetPlansA Proofs.NetPlansB Proofs.NetPlansC.
Import ListNotations.

Lemma of_table_pn : forall t, of_table t = map pn t.
Proof. intros t. unfold of_table. apply map_ext. intros [a b]. reflexivity. Qed.

Lemma table_valid : forall n, n <= 64 -> valid n (of_table (network_swaps n)).
Proof.
  intros n Hn. rewrite of_table_pn. apply valid_table_spec.
  do 65 (destruct n as [|n]; [vm_compute; reflexivity|]). lia.
Qed.

Lemma table_small : forall n, n <= 32 -> sorts01 n (of_table (network_swaps n)).
Proof.
  intros n Hn. rewrite of_table_pn. destruct n as [|n]; [intros v i j; lia|].
  destruct n as [|n]; [intros v i j; lia|].
  destruct n as [|n]; [exact sorts2|].
  destruct n as [|n]; [exact sorts3|].
  destruct n as [|n]; [exact sorts4|].
  destruct n as [|n]; [exact sorts5|].
  destruct n as [|n]; [exact sorts6|].
  destruct n as [|n]; [exact sorts7|].
  destruct n as [|n]; [exact sorts8|].
  destruct n as [|n]; [exact sorts9|].
  destruct n as [|n]; [exact sorts10|].
  destruct n as [|n]; [exact sorts11|].
  destruct n as [|n]; [exact sorts12|].
  destruct n as [|n]; [exact sorts13|].
  destruct n as [|n]; [exact sorts14|].
  destruct n as [|n]; [exact sorts15|].
  destruct n as [|n]; [exact sorts16|].
  destruct n as [|n]; [exact sorts17|].
  destruct n as [|n]; [exact sorts18|].
  destruct n as [|n]; [exact sorts19|].
  destruct n as [|n]; [exact sorts20|].
  destruct n as [|n]; [exact sorts21|].
  destruct n as [|n]; [exact sorts22|].
  destruct n as [|n]; [exact sorts23|].
  destruct n as [|n]; [exact sorts24|].
  destruct n as [|n]; [exact sorts25|].
  destruct n as [|n]; [exact sorts26|].
  destruct n as [|n]; [exact sorts27|].
  destruct n as [|n]; [exact sorts28|].
  destruct n as [|n]; [exact sorts29|].
  destruct n as [|n]; [exact sorts30|].
  destruct n as [|n]; [exact sorts31|].
  destruct n as [|n]; [exact sorts32|].
  lia.
Qed.

(** The sizes above 32 that are covered. *)
Definition covered_sizes : list nat :=
  [33; 34; 35; 45; 46; 47; 48; 49; 50; 51; 53; 54; 55; 56; 57; 58; 59; 60; 61; 62; 63].

Lemma table_large : forall n, In n covered_sizes -> sorts01 n (of_table (network_swaps n)).
Proof.
  intros n Hn. rewrite of_table_pn. unfold covered_sizes in Hn.
  destruct Hn as [<-|Hn]; [exact sorts33|].
  destruct Hn as [<-|Hn]; [exact sorts34|].
  destruct Hn as [<-|Hn]; [exact sorts35|].
  destruct Hn as [<-|Hn]; [exact sorts45|].
  destruct Hn as [<-|Hn]; [exact sorts46|].
  destruct Hn as [<-|Hn]; [exact sorts47|].
  destruct Hn as [<-|Hn]; [exact sorts48|].
  destruct Hn as [<-|Hn]; [exact sorts49|].
  destruct Hn as [<-|Hn]; [exact sorts50|].
  destruct Hn as [<-|Hn]; [exact sorts51|].
  destruct Hn as [<-|Hn]; [exact sorts53|].
  destruct Hn as [<-|Hn]; [exact sorts54|].
  destruct Hn as [<-|Hn]; [exact sorts55|].
  destruct Hn as [<-|Hn]; [exact sorts56|].
  destruct Hn as [<-|Hn]; [exact sorts57|].
  destruct Hn as [<-|Hn]; [exact sorts58|].
  destruct Hn as [<-|Hn]; [exact sorts59|].
  destruct Hn as [<-|Hn]; [exact sorts60|].
  destruct Hn as [<-|Hn]; [exact sorts61|].
  destruct Hn as [<-|Hn]; [exact sorts62|].
  destruct Hn as [<-|Hn]; [exact sorts63|].
  destruct Hn.
Qed.

Lemma table_pairs : forall n, network_pairs n = network_swaps n.
Proof.
  intros n. do 65 (destruct n as [|n]; [reflexivity|]). reflexivity.
Qed.

Section Sorter.
Context {A T : Type} (comp : T -> T -> bool) (proj : A -> T).

Lemma network_sorter_eq : forall n f l,
  sorting_network_sorter comp proj n f l = swap_index_pairs comp proj f (of_table (network_swaps n)).
Proof.
  intros n f l. unfold sorting_network_sorter. destruct n as [|[|n]]; reflexivity.
Qed.

Lemma network_sorter_sorts : forall n, strict_weak_order comp -> n <= 64 ->
  sorts01 n (of_table (network_swaps n)) -> sorts_size n (by_proj comp proj) (sorting_network_sorter comp proj n).
Proof.
  intros n HC Hn HS pre xs post Hl.
  destruct (network_sorts_size A T comp proj n _ HC (table_valid n Hn) HS pre xs post Hl) as (ys & E & H).
  exists ys. rewrite network_sorter_eq. auto.
Qed.

Lemma network_pairs_sorts : forall n, strict_weak_order comp -> n <= 64 ->
  sorts01 n (of_table (network_swaps n)) ->
  sorts_size n (by_proj comp proj) (fun first _ => swap_index_pairs comp proj first (sorting_network_index_pairs n)).
Proof.
  intros n HC Hn HS. unfold sorting_network_index_pairs. rewrite table_pairs.
  apply network_sorts_size; auto. apply table_valid; auto.
Qed.

Lemma network_sorter_permutes : forall n, n <= 64 -> permutes_size n (sorting_network_sorter comp proj n).
Proof.
  intros n Hn pre xs post Hl.
  destruct (network_permutes_size A T comp proj n _ (table_valid n Hn) pre xs post Hl) as (ys & E & H).
  exists ys. rewrite network_sorter_eq. auto.
Qed.
End Sorter.
