(** Properties C08, C34 (trees), C40-C43, C65: trees. *)
From Coq Require Import ZArith List Bool Lia ZifyBool Arith.
From Verif Require Import Base Datum CodecModel CodecSpec FloatModel FloatSpec IntervalSpec DistModel DistSpec CmpSpec TreeModel TreeSpec TreeFacts TreeCodecSpec TreeCodec TreeLimits.
Import ListNotations.
Open Scope Z_scope.

(** C40: every operation has exactly the effect it promises, on every state reached, and
    in all these states the sampling data of every node agrees with the tree below it. *)
Theorem C40_operations : forall h o, reached h -> allowed h o -> outcome h o (step h o).
Proof. exact operations. Qed.
Print Assumptions C40_operations.
Theorem C40_consistent : forall h t, reached h -> alive h t ->
  exists T n, represents h t T /\ node_at h t = Some n /\ sampled_as n T.
Proof. exact consistent. Qed.
Print Assumptions C40_consistent.
Theorem C40_accessors : forall h t v, reached h -> seen h t = Some v ->
  get_value h t = Ok (v_value v) /\ get_arity h t = Ok (v_arity v) /\ get_weight h t = Ok (v_weight v) /\
  get_bias h t = Ok (v_bias v) /\ get_parent h t = Ok (v_parent v) /\
  (forall i, ((v_arity v <= i)%nat /\ get_child h t i = Err ERR_OUT_OF_BOUNDS) \/
             exists c, nth_error (v_children v) i = Some c /\ get_child h t i = Ok c) /\
  (forall array count, answered None (v_children v) array count (get_children h t array count)).
Proof. exact accessors. Qed.
Print Assumptions C40_accessors.

(** C34 for trees: a child or the node itself is drawn, of positive weight *)
Theorem C34_tree : forall h t T, reached h -> represents h t T ->
  exists n, node_at h t = Some n /\ sampled_as n T /\
  (keq (fkey (weight_of T)) (fkey 0) -> forall us, tree_samples h t us = Err ERR_INVALID_DISTRIBUTION) /\
  (finite (weight_of T) -> klt (fkey 0) (fkey (weight_of T)) -> finite (fdiv ONE (weight_of T)) ->
   forall us, Forall unit_draw us ->
   exists is, tree_samples h t us = Ok (map Z.of_nat is) /\
     Forall2 (fun u i => exists w, nth_error (choices T) i = Some w /\ in_area (n_areas n) i u /\
       ((S i < length (choices T))%nat \/
        (scaled (weight_of T) <= 2 ^ 2096 /\ klt (fkey u) (fkey 0x3fefffffffffffff)) -> klt (fkey 0) (fkey w))) us is).
Proof. exact tree_selects. Qed.
Print Assumptions C34_tree.

(** A root with a child at 1, that has a child at 0: 3 of weight 0 and bias 1 under 2 of
    bias 4 under 0 *)
Definition two : Z := 0x4000000000000000.
Definition four : Z := 0x4010000000000000.
Fixpoint run (h : heap) (l : list op) : res heap := match l with [] => Ok h | o :: l => do h <- step h o; run h l end.
Definition history : list op :=
  [OCreate 2 (ccs_int 10); OCreate 0 (ccs_int 20); OCreate 1 (ccs_string (Some [104; 105])); OCreate 0 (ccs_float two);
   OSetChild 2 0 3; OSetWeight 3 0; OSetChild 0 1 2; OSetBias 2 four; OSetWeight 0 two; OSetUserData 2 (Some [7])].
Definition built_heap : heap := match run [] history with Ok h => h | _ => [] end.
Definition example_tree : ttree :=
  TNode (ccs_int 10) two ONE
    [None; Some (TNode (ccs_string (Some [104; 105])) ONE four [Some (TNode (ccs_float two) 0 ONE [] None)] (Some [7]))] None.
Example C40_ex : reached built_heap /\ represents built_heap 0 example_tree /\
  weight_of example_tree = 0x401c000000000000 /\ (* 7 = 1 + 4 * (0 + 1) + 2 *)
  choices example_tree = [ONE; four; two] /\
  tree_samples built_heap 0 [0; 0x3fe0000000000000; 0x3feccccccccccccd] = Ok [0; 1; 2].
Proof.
  split; [|split; [|split; [|split]]]; [|..|vm_compute; reflexivity|vm_compute; reflexivity|vm_compute; reflexivity].
  - assert (G : forall l h, reached h -> (fix ok (h : heap) (l : list op) : Prop :=
      match l with [] => True | o :: l => allowed h o /\ match step h o with Ok h' => ok h' l | _ => False end end) h l ->
      exists h', run h l = Ok h' /\ reached h').
    { induction l as [|o l IH]; intros h R A; [exists h; auto|]. destruct A as [A B]. cbn [run]. destruct (step h o) as [h1| |] eqn:S; try contradiction.
      cbn [bind]. apply IH; [|exact B]. eapply reached_ok; eauto. }
    assert (NU : forall h c t, (exists v, seen h t = Some v /\ v_parent v = None) -> c <> t -> ~ under h c t).
    { intros h c t (v & E & P) N U. inversion U as [|id w p i Ew Pw]; subst; congruence. }
    destruct (G history [] reached_none) as (h' & RH & R'); [|unfold built_heap; rewrite RH; exact R'].
    unfold history.
    Ltac stp := split; [|match goal with |- match step ?h ?o with _ => _ end => let r := eval vm_compute in (step h o) in change (step h o) with r end; cbv iota beta].
    stp; [cbn; repeat split; lia|]. stp; [cbn; repeat split; lia|]. stp; [cbn; repeat split; try lia; repeat constructor; unfold is_char; lia|]. stp; [cbn; repeat split; unfold two; lia|].
    stp; [split; [discriminate|split; [discriminate|apply NU; [eexists; split; reflexivity|discriminate]]]|].
    stp; [split; [discriminate|lia]|].
    stp; [split; [discriminate|split; [discriminate|apply NU; [eexists; split; reflexivity|discriminate]]]|].
    stp; [split; [discriminate|unfold four; lia]|]. stp; [split; [discriminate|unfold two; lia]|]. stp; [discriminate|]. exact Logic.I.
  - assert (E3 : represents built_heap 3 (TNode (ccs_float two) 0 ONE [] None)).
    { set (v := match seen built_heap 3 with Some v => v | None => mkView 0 ccs_none 0 0 [] None None end).
      change (represents built_heap 3 (TNode (v_value v) (v_weight v) (v_bias v) [] (v_ud v))). constructor; [vm_compute; reflexivity|vm_compute; constructor]. }
    assert (E2 : represents built_heap 2 (TNode (ccs_string (Some [104; 105])) ONE four [Some (TNode (ccs_float two) 0 ONE [] None)] (Some [7]))).
    { set (v := match seen built_heap 2 with Some v => v | None => mkView 0 ccs_none 0 0 [] None None end).
      change (represents built_heap 2 (TNode (v_value v) (v_weight v) (v_bias v) [Some (TNode (ccs_float two) 0 ONE [] None)] (v_ud v))).
      constructor; [vm_compute; reflexivity|]. change (v_children v) with [Some 3%nat]. constructor; [exact E3|constructor]. }
    set (v := match seen built_heap 0 with Some v => v | None => mkView 0 ccs_none 0 0 [] None None end).
    unfold example_tree. change (represents built_heap 0 (TNode (v_value v) (v_weight v) (v_bias v) [None; Some (TNode (ccs_string (Some [104; 105])) ONE four [Some (TNode (ccs_float two) 0 ONE [] None)] (Some [7]))] (v_ud v))).
    constructor; [vm_compute; reflexivity|]. change (v_children v) with [None; Some 2%nat]. constructor. constructor; [exact E2|constructor].
Qed.
(** A node of weight zero is refused *)
Example C34_tree_ex : tree_samples built_heap 3 [0] = Err ERR_INVALID_DISTRIBUTION.
Proof. vm_compute. reflexivity. Qed.

(** C41: navigation *)
Theorem C41_positions : forall h t, reached h -> alive h t -> exists root l vs,
  is_root h root /\ designates h root l t /\ values_along h root l vs /\
  (forall root' l', is_root h root' -> designates h root' l' t -> root' = root /\ l' = l) /\
  (forall array count, answered 0%nat l array count (get_position h t array count)) /\
  (forall array count, answered ccs_none vs array count (get_values h t array count)).
Proof. exact positions. Qed.
Print Assumptions C41_positions.
Theorem C41_node_at : forall h t l, reached h -> alive h t ->
  (exists d, get_node_at_position h t l = Ok d /\ designates h t l d) \/
  (get_node_at_position h t l = Err ERR_INVALID_TREE /\ breaks h t l) \/
  (get_node_at_position h t l = Err ERR_OUT_OF_BOUNDS /\ strays h t l).
Proof. exact node_found. Qed.
Print Assumptions C41_node_at.
Theorem C41_values_at : forall h t l size, reached h -> alive h t ->
  ((size <= length l)%nat /\ get_values_at_position h t l size = Err ERR_INVALID_VALUE) \/
  ((length l < size)%nat /\
   ((exists vs, values_along h t l vs /\ get_values_at_position h t l size = Ok (vs ++ repeat ccs_none (size - length vs))) \/
    (breaks h t l /\ get_values_at_position h t l size = Err ERR_INVALID_TREE) \/
    (strays h t l /\ get_values_at_position h t l size = Err ERR_OUT_OF_BOUNDS))).
Proof. exact values_found. Qed.
Print Assumptions C41_values_at.
Theorem C41_extends : forall h t l d p q, reached h -> designates h t l d -> alive h t ->
  get_position h t (Some (length p)) true = Ok (Some p, length p) ->
  get_position h d (Some (length q)) true = Ok (Some q, length q) -> q = p ++ l.
Proof. exact position_extends. Qed.
Print Assumptions C41_extends.
Example C41_ex :
  get_position built_heap 3 (Some 3%nat) true = Ok (Some [1; 0; 0]%nat, 2%nat) /\
  get_node_at_position built_heap 0 [1; 0]%nat = Ok 3%nat /\
  get_values built_heap 3 (Some 3%nat) true = Ok (Some [ccs_int 10; ccs_string (Some [104; 105]); ccs_float two], 3%nat) /\
  get_values_at_position built_heap 0 [1]%nat 3 = Ok [ccs_int 10; ccs_string (Some [104; 105]); ccs_none] /\
  get_node_at_position built_heap 0 [0; 5]%nat = Err ERR_INVALID_TREE /\
  get_node_at_position built_heap 0 [1; 1]%nat = Err ERR_OUT_OF_BOUNDS.
Proof. vm_compute. repeat split. Qed.

(** C42: validity *)
Theorem C42_valid : forall h t l, reached h -> alive h t ->
  exists b, position_is_valid h t l = Ok b /\
    (b = true <-> (exists d, get_node_at_position h t l = Ok d) \/ dangling h t l).
Proof. exact valid_positions. Qed.
Print Assumptions C42_valid.
Theorem C42_sampled : forall h t fuel us l rest, reached h -> alive h t -> walk fuel h t us = Ok (l, rest) ->
  position_is_valid h t l = Ok true /\
  ((exists d, get_node_at_position h t l = Ok d) \/ dangling h t l) /\ exists used, us = used ++ rest.
Proof. exact walks. Qed.
Print Assumptions C42_sampled.
(** A valid position, which sampling returns, that designates no node *)
Theorem C42_refuted : exists h t l u, reached h /\ alive h t /\ walk 9 h t [u] = Ok (l, []) /\
  position_is_valid h t l = Ok true /\ get_node_at_position h t l = Err ERR_INVALID_TREE.
Proof.
  exists built_heap, 0%nat, [0%nat], 0. split; [exact (proj1 C40_ex)|]. split; [vm_compute; discriminate|]. vm_compute. repeat split.
Qed.
Print Assumptions C42_refuted.

(** C43: cycles *)
Theorem C43_forest : forall h, reached h -> forest h.
Proof. exact always_forest. Qed.
Print Assumptions C43_forest.
Theorem C43_sampling_ends : forall h t T us, reached h -> represents h t T -> samplable T ->
  (length h <= length us)%nat -> Forall unit_draw us -> exists l rest, walk (length h) h t us = Ok (l, rest).
Proof. exact walk_ends. Qed.
Print Assumptions C43_sampling_ends.
Theorem C43_below_itself : forall h t c i, reached h -> alive h t -> alive h c -> under h c t ->
  (exists v, seen h t = Some v /\ (v_arity v <= i)%nat /\ set_child h t i c = Err ERR_OUT_OF_BOUNDS) \/
  (exists v d, seen h t = Some v /\ nth_error (v_children v) i = Some (Some d) /\ set_child h t i c = Err ERR_INVALID_VALUE) \/
  (exists v u p, seen h t = Some v /\ nth_error (v_children v) i = Some None /\ seen h c = Some u /\ v_parent u = Some p /\
     set_child h t i c = Err ERR_INVALID_TREE) \/
  (exists v T, seen h t = Some v /\ nth_error (v_children v) i = Some None /\ is_root h c /\ represents h c T /\
    ((~ keq (fkey (fmul (weight_of T) (t_bias T))) (fkey ONE) /\ set_child h t i c = UB UBDiverge) \/
     (keq (fkey (fmul (weight_of T) (t_bias T))) (fkey ONE) /\ exists h', set_child h t i c = Ok h' /\ ~ forest h'))).
Proof. exact cycles. Qed.
Print Assumptions C43_below_itself.
(** Attaching a root below itself never returns; with a bias of 0.5 on a node of weight 2 it
    succeeds, and then asking the position of the node never returns. *)
Theorem C43_refuted :
  (exists h, reached h /\ alive h 0%nat /\ set_child h 0 0 0 = UB UBDiverge) /\
  (exists h h', reached h /\ set_child h 0 0 0 = Ok h' /\ get_parent h' 0 = Ok (Some (0%nat, 0%nat)) /\
     get_position h' 0 None true = UB UBDiverge).
Proof.
  set (h1 := [Some (new_node 1 (ccs_int 0))]).
  assert (R1 : reached h1) by (apply (reached_ok [] (OCreate 1 (ccs_int 0))); [constructor|cbn; repeat split; lia|vm_compute; reflexivity]).
  split.
  - exists h1. split; [exact R1|]. split; [discriminate|vm_compute; reflexivity].
  - exists (match set_bias h1 0 0x3fe0000000000000 with Ok h => h | _ => [] end). eexists. split.
    + apply (reached_ok h1 (OSetBias 0 0x3fe0000000000000)); [exact R1|split; [discriminate|lia]|vm_compute; reflexivity].
    + split; [vm_compute; reflexivity|]. vm_compute. repeat split.
Qed.
Print Assumptions C43_refuted.
Example C43_ex : exists l rest, walk 4 built_heap 0 (repeat 0x3fd3333333333333 4) = Ok (l, rest) /\ l = [1]%nat /\ length rest = 2%nat.
Proof. eexists. eexists. split; [vm_compute; reflexivity|]. split; reflexivity. Qed.

(** C08: round trip. [h] holds the tree, [h2] is where it is restored. *)
Theorem C08_written : forall le h t, reached h -> storable_heap h -> alive h t ->
  exists bs, wire_tree h t bs /\ encodes (ser_tree le (S (length h)) h t) bs /\
             size_tree (S (length h)) h t = Ok (lenZ bs).
Proof. exact tree_written. Qed.
Print Assumptions C08_written.
Theorem C08_restored : forall le h t T bs h2, reached h -> storable_heap h -> represents h t T -> wire_tree h t bs -> reached h2 ->
  exists t' h',
    (forall tl n, lenZ bs <= n <= lenZ (bs ++ tl) -> n < 2 ^ 64 ->
       deserialize_tree le h2 (mkR (bs ++ tl) n) = Ok ((t', h'), mkR tl (n - lenZ bs))) /\
    (plain T -> forall p q tl, bs = p ++ q -> q <> [] -> lenZ p < 2 ^ 64 ->
       deserialize_tree le h2 (mkR (p ++ tl) (lenZ p)) = Err ERR_NOT_ENOUGH_DATA) /\
    reached h' /\ represents h' t' (restored_tree T) /\ is_root h' t' /\
    (forall x, alive h2 x -> seen h' x = seen h2 x).
Proof. exact tree_restored. Qed.
Print Assumptions C08_restored.
Example C08_ex :
  match ser_tree true 5 built_heap 0 (mkW [] (repeat 0 200) 200) with
  | Ok s => size_tree 5 built_heap 0 = Ok (lenZ (w_done s)) /\
      match deserialize_tree true built_heap (mkR (w_done s) (lenZ (w_done s))) with
      | Ok (t, h, r) => t = 6%nat /\ firstn 4 h = built_heap /\ r = mkR [] 0 /\
          get_values h 4 (Some 3%nat) true = Ok (Some [ccs_int 10; ccs_string (Some [104; 105]); ccs_float two], 3%nat) /\
          tree_samples h 6 [0; 0x3fe0000000000000; 0x3feccccccccccccd] = Ok [0; 1; 2]
      | _ => False
      end
  | _ => False
  end.
Proof. vm_compute. repeat split. Qed.

(** C65: creating nodes of any arity *)
Theorem C65_create : forall h arity value, 0 <= arity < 2 ^ 64 -> wf_datum value ->
  let bytes := 160 + 24 * arity + string_bytes (d_val value) in
  (create_tree h arity value = Err ERR_INVALID_VALUE <-> ~ node_value (d_val value) \/ 2 ^ 63 - 1 <= arity) /\
  (node_value (d_val value) -> arity < 2 ^ 63 - 1 ->
     (2 ^ 56 < bytes mod 2 ^ 64 /\ create_tree h arity value = Err ERR_OUT_OF_MEMORY) \/
     (bytes <= 2 ^ 56 /\ create_tree h arity value = Ok (length h, h ++ [Some (new_node (Z.to_nat arity) value)])) \/
     (2 ^ 64 <= bytes /\ bytes mod 2 ^ 64 <= 2 ^ 56 /\ create_tree h arity value = UB UBBounds)).
Proof. exact create_any. Qed.
Print Assumptions C65_create.
(** 2^61 children: the block is only of 160 bytes *)
Theorem C65_refuted : exists h arity, 0 <= arity < 2 ^ 64 /\ create_tree h arity (ccs_int 1) = UB UBBounds.
Proof. exists [], (2 ^ 61). split; [lia|]. vm_compute. reflexivity. Qed.
Print Assumptions C65_refuted.
