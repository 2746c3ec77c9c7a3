(** Properties C25 and C26: spaces as lists of parameters and bindings as arrays. *)
From Coq Require Import ZArith List Bool Lia.
From Verif Require Import Base Datum CodecModel CmpSpec ParamModel ParamSpec ContextModel ContextSpec ContextProofs.
Import ListNotations.
Open Scope Z_scope.

(** C25: whatever parameters were offered to a new space, the additions that succeed are
    those the rules admit, and all lookups describe the list of added parameters. *)
Theorem C25_lookups : forall heap k nm l, exists cs c A,
  add_run heap k (new_context nm) l = (cs, c) /\ space_run heap k [] l cs A /\ describes heap c A.
Proof. exact context_history. Qed.
Print Assumptions C25_lookups.
Theorem C25_add_parameters : forall heap k nm l m, exists cs c A r c' B,
  add_run heap k (new_context nm) l = (cs, c) /\ space_run heap k [] l cs A /\
  add_parameters heap k c m = (r, c') /\ space_adds heap k A m r B /\ describes heap c' B.
Proof. exact context_adds. Qed.
Print Assumptions C25_add_parameters.
Definition ex_heap (h : Z) : param :=
  if h =? 10 then mkParam PNUMERICAL [97] (ccs_int 1) (mkInterval NUM_INT 0 5 true false) 0 []
  else if h =? 20 then mkParam PNUMERICAL [98] (ccs_int 1) (mkInterval NUM_INT 0 9 true false) 0 []
  else if h =? 30 then mkParam PNUMERICAL [97] (ccs_int 2) (mkInterval NUM_INT 0 9 true false) 0 []
  else create_string [99].
Example C25_ex : (* 30 has the name of 10, 40 is a string parameter, 20 first comes with a pair of dimensions *)
  let '(cs, c) := add_run ex_heap KConfiguration (new_context [120])
                    [(10, None); (30, None); (20, Some 2); (40, None); (20, Some 1)] in
  cs = [0; ERR_INVALID_PARAMETER; ERR_INVALID_DISTRIBUTION; ERR_INVALID_PARAMETER; 0] /\
  get_parameters c (Some 3%nat) = Ok (Some [10; 20; 0], 2%nat) /\
  get_index c 20 = Ok 1%nat /\ get_by_name c [98] = Ok 20 /\ get_index c 30 = Err ERR_INVALID_PARAMETER /\
  get_indexes c [20; 10] = Ok [1%nat; 0%nat].
Proof. vm_compute. repeat split. Qed.
(** The index is truncated to 32 bits, so that an index out of range is accepted. *)
Theorem C25_index_range_refuted : exists heap l i c,
  add_run heap KObjective (new_context []) l = ([0], c) /\ 1 <= i < 2 ^ 64 /\ exists h, get_parameter c i = Ok h.
Proof.
  exists ex_heap, [(10, None)], (2 ^ 32). eexists. split; [reflexivity|]. split; [lia|]. exists 10. reflexivity.
Qed.
Print Assumptions C25_index_range_refuted.

(** C26: a binding created over such a space, after any history of calls that set
    values, holds the array these calls describe, and is read as that array by index, by
    name and by parameter. *)
Theorem C26_array : forall heap jen k nm l vs os,
  (forall h, In h (map fst l) -> created jen (heap h)) ->
  match vs with Some v => Forall wf_datum v | None => True end ->
  Forall (fun o => Forall wf_datum (given o)) os ->
  exists cs c A, add_run heap k (new_context nm) l = (cs, c) /\ space_run heap k [] l cs A /\
    match vs with
    | None => create_binding heap jen c None = Ok (repeat ccs_none (length A))
    | Some v => creates heap A v (create_binding heap jen c (Some v))
    end /\
    forall vals, create_binding heap jen c vs = Ok vals ->
      exists rs vals', brun heap jen c vals os = (rs, vals') /\ effects heap A vals os rs vals' /\
        reads_as heap c A vals'.
Proof. exact binding_history. Qed.
Print Assumptions C26_array.
Theorem C26_get_values : forall vals,
  bget_values vals None = Ok (None, length vals) /\
  forall a, (length a < length vals)%nat /\ bget_values vals (Some a) = Err ERR_INVALID_VALUE \/
    (length vals <= length a)%nat /\ exists out, bget_values vals (Some a) = Ok (Some out, length vals) /\
      length out = length a /\ (forall i, (i < length vals)%nat -> nth_error out i = nth_error vals i) /\
      (forall i d, (length vals <= i)%nat -> nth_error a i = Some d -> nth_error out i = Some (mkDatum VNone (d_flags d))).
Proof. exact get_values_ok. Qed.
Print Assumptions C26_get_values.
Example C26_ex :
  let c := snd (add_run ex_heap KObjective (new_context []) [(10, None); (20, None); (40, None)]) in
  let jen := fun l => lenZ l in
  let t v := mkDatum v 1 in
  (* values not flagged transient are stored unchecked *)
  brun ex_heap jen c (repeat ccs_none 3)
    [SetName [98] (t (VInt 8)); SetParam 10 (t (VInt 8)); SetIndex 0 (ccs_int 8); SetIndex 3 ccs_none;
     SetName [100] ccs_none; SetValues [ccs_int 1; ccs_int 2]; SetIndex 2 (t (VString (Some [65])))] =
  ([0; ERR_INVALID_VALUE; 0; ERR_OUT_OF_BOUNDS; ERR_INVALID_NAME; ERR_INVALID_VALUE; 0],
   [ccs_int 8; t (VInt 8); ccs_string (Some [65])]) /\
  bget_values [ccs_int 8; ccs_int 7] (Some [ccs_none; ccs_none; t (VInt 4)]) =
  Ok (Some [ccs_int 8; ccs_int 7; mkDatum VNone 1], 2%nat).
Proof. vm_compute. split; reflexivity. Qed.
(** A failed set_values may have changed the binding. *)
Theorem C26_failed_unchanged_refuted : exists heap c vals vs, forall jen,
  fst (bset_values heap jen c vals vs) <> 0 /\ snd (bset_values heap jen c vals vs) <> vals.
Proof.
  exists ex_heap, (snd (add_run ex_heap KObjective (new_context []) [(10, None); (20, None)])),
    [ccs_int 1; ccs_int 1], [ccs_int 2; mkDatum VNone 1].
  intro jen. vm_compute. split; discriminate.
Qed.
Print Assumptions C26_failed_unchanged_refuted.
