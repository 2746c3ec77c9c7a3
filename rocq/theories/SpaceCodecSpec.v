(** What saving and restoring features spaces and objective spaces promises. *)
From Coq Require Import ZArith List Bool.
From Verif Require Import Base Datum CodecModel CodecSpec ParamModel ParamSpec ContextModel ContextSpec MapModel ExprModel ExprSpec RngModel TreeModel TreeCodecSpec TreeSpaceSpec TreeConfModel RestoreSpec TunerCodecSpec EvalModel SpaceCodecModel.
Import ListNotations.
Open Scope Z_scope.

(** ** What a parameter is read back as *)
(** the default of a categorical parameter becomes the last value not told apart from it *)
Definition read_back (p p' : param) : Prop :=
  exists d, p' = with_default p d /\
    (if (p_type p =? PNUMERICAL) || (p_type p =? PSTRING) then d = p_default p else last_confused (p_default p) (p_values p) d).

Section Heap.
  Variables (jen : list Z -> Z) (heap : Z -> param) (pud : Z -> option (list Z)).
  (** ** The bytes *)
  Definition wire_parameter (h : Z) (bs : list Z) : Prop :=
    exists pb ub, wire_param h (heap h) pb /\ wire_blob (ud_bytes (pud h)) ub /\ bs = pb ++ ub.
  Definition wire_objective (o : expr * Z) (bs : list Z) : Prop :=
    exists eb, wire_expr (fst o) eb /\ bs = eb ++ [snd o].
  Definition wire_features_space (id : Z) (ud : option (list Z)) (name : list Z) (A : list Z) (bs : list Z) : Prop :=
    exists lh nb ln pb ub, leb128 id lh /\ wire_string name nb /\ leb128 (lenZ A) ln /\ wire_all wire_parameter A pb /\
      wire_blob (ud_bytes ud) ub /\ bs = (9 :: lh) ++ nb ++ ln ++ pb ++ ub.
  Definition wire_objective_space (id : Z) (ud : option (list Z)) (name : list Z) (A : list Z) (objs : list (expr * Z)) (bs : list Z) : Prop :=
    exists lh nb ln lo pb ob ub, leb128 id lh /\ wire_string name nb /\ leb128 (lenZ A) ln /\ leb128 (lenZ objs) lo /\
      wire_all wire_parameter A pb /\ wire_all wire_objective objs ob /\ wire_blob (ud_bytes ud) ub /\
      bs = (6 :: lh) ++ nb ++ ln ++ lo ++ pb ++ ob ++ ub.

  (** ** What can be saved *)
  Definition storable_parameter (h : Z) : Prop := in_unsigned 64 h /\ created jen (heap h) /\ lenZ (ud_bytes (pud h)) < 2 ^ 64.
  (** an objective over the parameters [A] *)
  Definition storable_objective (A : list Z) (o : expr * Z) : Prop :=
    wf_expr (fun h => In h A) (fst o) /\ storable (fst o) /\ (snd o = MINIMIZE \/ snd o = MAXIMIZE).
  Definition storable_space (id : Z) (ud : option (list Z)) (c : context) (A : list Z) : Prop :=
    in_unsigned 64 id /\ lenZ (ud_bytes ud) < 2 ^ 64 /\ ok_name (c_name c) /\ describes heap c A /\ Forall storable_parameter A /\ lenZ A < 2 ^ 61.
  Definition handles (objs : list (expr * Z)) : list Z := map (fun o => o_id (xobj_of (fst o))) objs.
  (** every object saved has a handle of its own *)
  Definition own_handles (A : list Z) (objs : list (expr * Z)) : Prop :=
    NoDup (handles objs) /\ forall h, In h (handles objs) -> ~ In h A.
  Definition no_data (A : list Z) : Prop := Forall (fun h => ud_bytes (pud h) = []) A.

  (** ** What is restored *)
  (** the parameters, at the addresses given *)
  Definition same_parameters (pid : nat -> Z) (A : list Z) (ps : list pobj) : Prop :=
    map po_id ps = map pid (seq 0 (length A)) /\
    Forall2 (fun h q => read_back (heap h) (po_param q) /\ po_ud q = restored_ud (pud h)) A ps.
  (** the space: its name, and its parameters in order *)
  Definition same_space (c : context) (ps : list pobj) (c' : context) : Prop :=
    c_name c' = c_name c /\
    forall heap', (forall q, In q ps -> heap' (po_id q) = po_param q) -> describes heap' c' (map po_id ps).
  (** new addresses *)
  Definition addresses (pid : nat -> Z) (n : nat) : Prop :=
    (forall i, (i < n)%nat -> 0 < pid i < 2 ^ 64) /\ (forall i j, (i < n)%nat -> (j < n)%nat -> pid i = pid j -> i = j).
  (** the new address of a parameter *)
  Definition moves (pid : nat -> Z) (A : list Z) (f : Z -> Z) : Prop := forall i h, nth_error A i = Some h -> f h = pid i.
End Heap.

(** A reader that uses freed memory *)
Definition uses_freed {A} (de : rstate -> res (A * rstate)) (bs : list Z) : Prop :=
  forall tl n, lenZ bs <= n <= lenZ (bs ++ tl) -> n < 2 ^ 64 -> de (mkR (bs ++ tl) n) = UB UBBounds.
