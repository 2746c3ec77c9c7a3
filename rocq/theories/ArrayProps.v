(** C82: the growable arrays are the lists of their elements. *)
From Coq Require Import ZArith List Bool Permutation Sorted.
From Verif Require Import Base SpaceModel ArrayModel ArraySpec ArrayRuns ArrayFacts.
Import ListNotations.
Open Scope Z_scope.

(** Whatever an application does with arrays, within its obligations, wherever the
    blocks of memory are and whenever memory lacks: no operation reads or writes outside
    of a block, and every answer is that of the lists *)
Theorem C82_arrays : forall N fuel p,
  0 <= N <= 2 ^ 31 -> N < Z.of_nat fuel -> legal N none p ->
  exists l, run fuel nothing p = Ok l /\ told none p l.
Proof. exact arrays. Qed.
Print Assumptions C82_arrays.

(** While memory does not lack, nothing has to be known about room *)
Theorem C82_enough_memory : forall N fuel p,
  0 <= N <= 2 ^ 31 -> N < Z.of_nat fuel -> rich N none p ->
  exists l, run fuel nothing p = Ok l /\ told none p l.
Proof. exact arrays_rich. Qed.
Print Assumptions C82_enough_memory.

(** Once memory lacked, an array does not have the room it counts on: the application is
    told of the error, and the next addition writes outside of the memory of the array *)
Theorem C82_after_oom_refuted :
  run 20 nothing (Do (New 8 1) (fun _ => Do (Push 1 (repeat (Some 7) 8) 0) (fun _ => Stop)))
  = Ok [Did false; Did true]
  /\ run 20 nothing (Do (New 8 1) (fun _ => Do (Push 1 (repeat (Some 7) 8) 0) (fun _ =>
       Do (Push 1 (repeat (Some 7) 8) 100) (fun _ => Stop)))) = UB UBBounds
  /\ exists k,
       run 20 nothing (Do (New 8 1) (fun _ =>
         (fix pushes (n : nat) (c : client) :=
            match n with O => c | S m => Do (Push 1 (repeat (Some 7) 8) 100) (fun _ => pushes m c) end)
         k (Do (Push 1 (repeat (Some 7) 8) 0) (fun _ =>
            Do (Push 1 (repeat (Some 7) 8) 200) (fun _ => Stop))))) = UB UBBounds.
Proof. split; [vm_compute; reflexivity|split; [vm_compute; reflexivity|exists 8%nat; vm_compute; reflexivity]]. Qed.
Print Assumptions C82_after_oom_refuted.

(** Sorting an array that never had an element gives NULL to qsort *)
Theorem C82_sort_nothing_refuted :
  run 20 nothing (Do (New 8 1) (fun _ => Do (Sort 1 []) (fun _ => Stop))) = UB UBBounds.
Proof. vm_compute. reflexivity. Qed.
Print Assumptions C82_sort_nothing_refuted.

(** An array of 2^31 elements: adding one more does not end *)
Theorem C82_limit : forall st a r v ans,
  arrs st a = Some r -> 2 ^ 31 <= a_i r < 2 ^ 32 - 1 ->
  (a_n r = 0 \/ exists k, 0 <= k <= 28 /\ a_n r = 8 * 2 ^ k) ->
  push_back st a v ans = UB UBDiverge.
Proof. exact too_many. Qed.
Print Assumptions C82_limit.

(** The sizes without repetitions, as configuration spaces keep them: the function on
    lists by which configuration spaces are modelled *)
Theorem C82_sizes : forall vs a v ord ans x vs',
  vs a = Some v -> Forall is_size (v_elems v) ->
  does vs (Uniq a ord ans) x vs' ->
  exists l, vs' a = Some (elements v l)
            /\ map index l = SpaceModel.uniq (map index (v_elems v)).
Proof. exact uniq_is. Qed.
Print Assumptions C82_sizes.

(** Ten sizes: the ninth makes the array move, and the two arrays do not disturb each
    other; the sizes without repetitions *)
Definition size_of (x : Z) : list cell :=
  map (fun i => Some (Z.land (Z.shiftr x (8 * i)) 255)) [0; 1; 2; 3; 4; 5; 6; 7].
Fixpoint script (l : list op) : client :=
  match l with [] => Stop | o :: r => Do o (fun _ => script r) end.
Definition tells (o : out) : bool :=
  match o with Nothing => false | Did false => false | _ => true end.
Definition ten : list Z := [300; 4; 4; 17; 300; 2; 70000; 4; 17; 9].
Example C82_ex :
  match run 30 nothing (script
    ([New 8 1; New 3 2; Push 2 [Some 1; None; Some 3] 50]
     ++ map (fun x => Push 1 (size_of x) (if x =? 17 then 100 else 200)) ten
     ++ [Len 1; Elt 1 3; Elt 1 10; Next 1 (Some (100, 72)); Next 1 (Some (100, 64));
         Prev 1 (Some (100, 0)); Prev 1 None;
         Read (Some (100, 24)) 8; Pop 1; Len 1;
         Uniq 1 (map size_of [2; 4; 4; 4; 17; 17; 300; 300; 70000]) 0; Each 1 8 true; Each 1 8 false;
         Push 2 [Some 4; Some 5; Some 6] 0; Each 2 3 true;
         Resize 2 9 60; Len 2; Resize 2 1 0; Each 2 3 true; Free 1; Read (Some (60, 0)) 3])) with
  | Ok l => filter tells l
  | _ => []
  end
  = [Number 10; Place (Some (100, 24)); Place None; Place None; Place (Some (100, 72));
     Place None; Place (Some (100, 72)); Bytes (size_of 17); Number 9;
     Elements (map size_of [2; 4; 17; 300; 70000]);
     Elements (map size_of [70000; 300; 17; 4; 2]);
     Elements [[Some 1; None; Some 3]; [Some 4; Some 5; Some 6]];
     Number 9; Elements [[Some 1; None; Some 3]]; Bytes [Some 1; None; Some 3]].
Proof. vm_compute. reflexivity. Qed.

(** Memory lacks for the first addition; the array may still be read and freed *)
Example C82_legal :
  legal 5 none (Do (New 8 1) (fun x =>
    match x with
    | Did false => Do (Push 1 (repeat (Some 7) 8) 0) (fun _ => Do (Len 1) (fun _ => Do (Free 1) (fun _ => Stop)))
    | _ => Stop
    end)).
Proof.
  split; [split; [split; reflexivity|intros _; reflexivity]|].
  intros x vs1 D1. inversion D1; subst.
  split.
  { eexists. split; [reflexivity|]. cbn.
    split; [reflexivity|]. split; [discriminate|]. split; [right; reflexivity|].
    intros b w W NB. unfold put in W. destruct (Z.eqb_spec b 1); [contradiction|discriminate]. }
  intros y vs2 D2. split.
  { inversion D2; subst; eexists; apply ArrayProofs.put_same. }
  intros z vs3 D3. inversion D3; subst. split; [|intros; exact Logic.I].
  eexists; eassumption.
Qed.
