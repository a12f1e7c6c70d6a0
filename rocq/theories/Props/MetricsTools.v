(** C84: the metrics of metrics_tools.h, and the functions on packs. *)
From Coq Require Import ZArith List Bool Lia.
From Verif Require Import Model.MetricsTools Proofs.MetricsTools.
Import ListNotations.
Local Open Scope Z_scope.

(** The index of the first occurrence. *)
Theorem C84_index_of_partial :
  forall (needle : nat) (haystack : list nat), In needle haystack ->
    exists i : nat, index_of needle haystack = Z.of_nat i /\ nth_error haystack i = Some needle /\ ~ In needle (firstn i haystack).
Proof. exact index_of_present. Qed.
Print Assumptions C84_index_of_partial.

(** "or -1 if the type is not in the list" (detail/type_traits.h:362-364): it is the index of the last type of the list. *)
Theorem C84_index_of_absent_refuted :
  forall (needle : nat) (haystack : list nat), ~ In needle haystack -> index_of needle haystack = Z.of_nat (length haystack) - 1.
Proof. exact index_of_absent. Qed.
Print Assumptions C84_index_of_absent_refuted.

(** get by index gives the member at this index, and does not compile outside of the tuple; get by tag gives the first member with this tag. *)
Theorem C84_get_partial :
  forall (V : Type) (mm : @metrics V),
    (forall i, get i mm = nth_error mm i) /\
    (forall tag, In tag (map fst mm) ->
       exists m before after, get_tag tag mm = Some m /\ fst m = tag /\ mm = before ++ m :: after /\ ~ In tag (map fst before)).
Proof. intros V mm. split; [reflexivity|]. intros tag. apply get_tag_present. Qed.
Print Assumptions C84_get_partial.

(** get by a tag that no member has gives the last member, instead of an error. *)
Theorem C84_get_absent_tag_refuted :
  forall (V : Type) (mm : @metrics V) (m : metric) (tag : nat), ~ In tag (map fst (mm ++ [m])) -> get_tag tag (mm ++ [m]) = Some m /\ fst m <> tag.
Proof. exact @get_tag_absent. Qed.
Print Assumptions C84_get_absent_tag_refuted.

(** A metrics can be copied, except by the direct initialization from an lvalue that is not constant or from a constant rvalue. *)
Theorem C84_copy_partial :
  forall (direct : bool) (v : value_category), (direct = false \/ v = ConstLvalue \/ v = Rvalue) <-> copies direct v = true.
Proof. intros [] []; vm_compute; split; try tauto; try discriminate; intros [|[|]]; discriminate. Qed.
Print Assumptions C84_copy_partial.

(** metrics<...> copy(mm), where mm is a variable, selects the constructor for metrics. *)
Theorem C84_copy_refuted : best_constructor true Lvalue = Variadic /\ copies true Lvalue = false.
Proof. split; reflexivity. Qed.
Print Assumptions C84_copy_refuted.

(** The functions on packs. *)
Theorem C84_packs :
  (forall value values, is_in_pack value values = true <-> In value values) /\
  (forall l, l <> [] -> exists b, any l = Some b /\ (b = true <-> In true l)) /\
  (forall l, l <> [] -> exists b, all l = Some b /\ (b = true <-> ~ In false l)).
Proof. split; [exact is_in_pack_spec|]. split; [exact any_spec|exact all_spec]. Qed.
Print Assumptions C84_packs.

Example C84_case :
  let mm := [(7%nat, 42); (3%nat, 140); (7%nat, 5)] in
  In 3%nat (map fst mm) /\ get_tag 3 mm = Some (3%nat, 140) /\ get_tag 7 mm = Some (7%nat, 42) /\ get 2 mm = Some (7%nat, 5) /\ get 3 mm = None /\
  ~ In 1%nat (map fst mm) /\ get_tag 1 mm = Some (7%nat, 5) /\ index_of 1 [2%nat] = 0 /\ copies false Lvalue = true.
Proof. vm_compute. repeat split; auto. intros [H|[H|[H|[]]]]; discriminate. Qed.
