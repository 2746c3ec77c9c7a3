(** C83: the doubly linked lists are lists, and the topological sort of the conditions of
    configuration spaces over them. *)
From Coq Require Import ZArith List Bool Relations.
From Verif Require Import Base ExprModel ExprSpec ContextModel ContextSpec SpaceModel DlistModel DlistSpec DlistProofs DlistTopo.
From Verif Require SpaceSpec.
Import ListNotations.
Open Scope Z_scope.

(** Whatever an application does with a doubly linked list, within its obligations: no
    operation touches memory that is not held, and every answer is that of the list *)
Theorem C83_lists : forall N fuel p,
  (N < fuel)%nat -> legal N empty p ->
  exists l, run fuel nothing p = Ok l /\ told empty p l.
Proof. exact lists. Qed.
Print Assumptions C83_lists.

(** Sorting any graph: every node that is on no cycle and behind none, once, after its
    parents, and no other; an error exactly when there is a cycle; no access outside of the
    block, which is freed *)
Theorem C83_sorts : forall fuel base parents children t,
  0 < base -> graph parents children -> (length parents < fuel)%nat ->
  (forall i, (i < length parents)%nat -> live (t_q t) (elem base i) = false) ->
  exists sorted code t',
    topological fuel base parents children t = Ok (sorted, code, t')
    /\ (forall a, live (t_q t') a = live (t_q t) a)
    /\ NoDup sorted
    /\ (forall l1 i l2 j, sorted = l1 ++ i :: l2 -> edge parents j i -> In j l1)
    /\ (forall i, In i sorted <-> (i < length parents)%nat /\ ~ behind_cycle parents i)
    /\ (code = CCS_RESULT_SUCCESS /\ (forall i, ~ clos_trans nat (edge parents) i i)
        \/ code = ERR_INVALID_GRAPH /\ (exists i, clos_trans nat (edge parents) i i)).
Proof. exact topological_means. Qed.
Print Assumptions C83_sorts.

(** It is the sort by which configuration spaces are modelled *)
Theorem C83_same_order : forall fuel base parents children t,
  0 < base -> graph parents children -> (length parents < fuel)%nat ->
  (forall i, (i < length parents)%nat -> live (t_q t) (elem base i) = false) ->
  exists sorted t',
    topological_sort parents children = Ok sorted
    /\ topological fuel base parents children t
       = Ok (sorted, if (length sorted <? length parents)%nat then ERR_INVALID_GRAPH else CCS_RESULT_SUCCESS, t')
    /\ (forall a, live (t_q t') a = live (t_q t) a).
Proof. exact topological_sorts. Qed.
Print Assumptions C83_same_order.

(** The graphs configuration spaces sort are those of their conditions *)
Theorem C83_conditions : forall heap c A conds parents children,
  describes heap c A -> length conds = length A -> Z.of_nat (length A) < 2 ^ 32 ->
  (forall i e h, nth_error conds i = Some (Some e) -> occurs h e -> 0 < h) ->
  recompute_graph c conds = Ok (parents, children) ->
  graph parents children /\ (forall i j, edge parents j i <-> SpaceSpec.reads A conds j i).
Proof. exact conditions_graph. Qed.
Print Assumptions C83_conditions.

(** Without memory nothing is touched *)
Theorem C83_no_memory : forall fuel parents children t,
  topological fuel 0 parents children t = Ok ([], ERR_OUT_OF_MEMORY, t).
Proof. exact topological_no_memory. Qed.
Print Assumptions C83_no_memory.

(** Deleting the first, one in the middle and the last, freeing the others *)
Example C83_ex :
  run 10 nothing
    (Do (New 40 7 7) (fun _ => Do (New 80 7 7) (fun _ => Do (New 16 7 7) (fun _ => Do (New 96 7 7) (fun _ =>
     Do (Append 40) (fun _ => Do (Append 80) (fun _ => Do (Append 16) (fun _ => Do (Append 96) (fun _ =>
     Do (Delete 80) (fun _ => Do Each (fun _ => Do (Delete 40) (fun _ => Do Head (fun _ =>
     Do (Delete 96) (fun _ => Do (Append 40) (fun _ => Do Count (fun _ => Do Drain (fun _ => Do Head (fun _ => Stop)))))))))))))))))) 
  = Ok [Nothing; Nothing; Nothing; Nothing; Nothing; Nothing; Nothing; Nothing; Nothing;
        Seen [40; 16; 96]; Nothing; At 16; Nothing; Nothing; Number 2; Seen [16; 40]; At 0].
Proof. vm_compute. reflexivity. Qed.

(** 0 and 3 come first, 1 needs both, 2 needs 1; with 4 and 5 needing each other and 6
    needing 4 these three are missing *)
Example C83_sort_ex :
  match topological 10 64 [[]; [0; 3]; [1]; []]%nat [[1]; [2]; []; [1]]%nat (mkT nothing (fun _ => 0) (fun _ => 0)) with
  | Ok (l, code, _) => Some (l, code) | _ => None end = Some ([0; 3; 1; 2]%nat, CCS_RESULT_SUCCESS)
  /\ match topological 10 64 [[]; [0; 3]; [1]; []; [5]; [4]; [4]]%nat [[1]; [2]; []; [1]; [5; 6]; [4]; []]%nat
             (mkT nothing (fun _ => 0) (fun _ => 0)) with
     | Ok (l, code, _) => Some (l, code) | _ => None end = Some ([0; 3; 1; 2]%nat, ERR_INVALID_GRAPH).
Proof. vm_compute. auto. Qed.
Example C83_graph_ex : graph [[]; [0]]%nat [[1]; []]%nat.
Proof.
  split; [reflexivity|]. split; [reflexivity|].
  assert (ND : forall l : list nat, (length l <= 1)%nat -> NoDup l).
  { intros [|x [|y l]] L; [constructor|constructor; [intros []|constructor]|]. cbn in L. inversion L. inversion H0. }
  split; [intros [|[|[|i]]]; apply ND; cbn; auto|]. split; [intros [|[|[|i]]]; apply ND; cbn; auto|].
  split.
  - intros [|[|[|i]]] j J I; cbn in *; try tauto. destruct J as [<-|[]]. auto.
  - intros i [|[|[|j]]]; cbn; split; try tauto.
    + intros [<-|[]]. cbn. auto.
    + intros (I & J). destruct i as [|[|[|i]]]; cbn in J; intuition congruence.
    + intros (I & J). destruct i as [|[|[|i]]]; cbn in J; intuition congruence.
    + intros (I & J). destruct i as [|[|[|i]]]; cbn in J; intuition congruence.
    + intros (I & J). destruct i as [|[|[|i]]]; cbn in J; intuition congruence.
Qed.
Example C83_legal : legal 1 empty (Do (New 40 0 0) (fun _ => Do (Append 40) (fun _ => Do (Delete 40) (fun _ => Stop)))).
Proof.
  split; [split; [discriminate|intros []]|]. intros x v D. inversion D; subst.
  split; [cbn; repeat split; auto; discriminate|]. intros x v D'. inversion D'; subst.
  split; [cbn; auto|]. intros x v D''. exact Logic.I.
Qed.
