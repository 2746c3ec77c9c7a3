(** Dictionaries, independently of the table. *)
From Coq Require Import ZArith List Bool.
From Verif Require Import Base Datum CmpModel CmpSpec CodecSpec CodecModel MapModel.
Import ListNotations.
Open Scope Z_scope.

Definition value_eq_dec (a b : value) : {a = b} + {a <> b}.
Proof.
  assert (L : forall x y : list Z, {x = y} + {x <> y}) by (apply list_eq_dec, Z.eq_dec).
  decide equality; try apply Z.eq_dec. decide equality.
Defined.

Definition dict := value -> option value.
Definition dempty : dict := fun _ => None.
Definition dset (D : dict) (k v : value) : dict := fun x => if value_eq_dec x k then Some v else D x.
Definition drem (D : dict) (k : value) : dict := fun x => if value_eq_dec x k then None else D x.

(** An owned reference to the NULL object cannot be stored. *)
Definition null_reference (d : datum) : bool :=
  match d_val d with VObject 0 => negb (Z.testbit (d_flags d) 2) | _ => false end.

Definition dict_step (D : dict) (o : mop) : Z * dict :=
  match o with
  | MSet k v =>
      match D (d_val k) with
      | Some w => if value_eq_dec w (d_val v) then (0, D)
                  else if null_reference k || null_reference v then (ERR_INVALID_OBJECT, D)
                  else (0, dset D (d_val k) (d_val v))
      | None => if null_reference k || null_reference v then (ERR_INVALID_OBJECT, D)
                else (0, dset D (d_val k) (d_val v))
      end
  | MDel k =>
      match D (d_val k) with
      | Some _ => (0, drem D (d_val k))
      | None => (ERR_INVALID_VALUE, D)
      end
  | MClear => (0, dempty)
  end.
Fixpoint dict_run (D : dict) (ops : list mop) : list Z * dict :=
  match ops with
  | [] => ([], D)
  | o :: ops' => let (c, D1) := dict_step D o in
                 let (cs, D2) := dict_run D1 ops' in (c :: cs, D2)
  end.

(** Datums of an operation; what a caller must guarantee: well-formed values and
    references to live objects, on which it keeps its own reference. *)
Definition op_data (o : mop) : list datum :=
  match o with MSet k v => [k; v] | MDel k => [k] | MClear => [] end.
Definition live_in (rc : Z -> Z) (d : datum) : Prop :=
  match d_val d with VObject h => h = 0 \/ Z.testbit (d_flags d) 2 = true \/ 1 <= rc h | _ => True end.
Definition good_op (rc : Z -> Z) (o : mop) : Prop :=
  Forall (fun d => wf_datum d /\ live_in rc d) (op_data o).

(** An array of [n] slots holding [l] and none after it. *)
Definition padded (l : list datum) (n : Z) (out : list datum) : Prop :=
  lenZ out = n /\ forall i, nth_error out i = if Z.of_nat i <? lenZ l then nth_error l i
                                            else if Z.of_nat i <? n then Some ccs_none else None.

(** Number of owned references to [h] among datums. *)
Definition refs (h : Z) (l : list datum) : Z :=
  lenZ (filter (fun d => match d_val d with
                         | VObject x => (x =? h) && negb (Z.testbit (d_flags d) 2)
                         | _ => false end) l).

(** bytes of the entries of a map *)
Inductive wire_pairs : list (datum * datum) -> list Z -> Prop :=
| wp_nil : wire_pairs [] []
| wp_cons k v l a b c : wire_datum (d_val k) a -> wire_datum (d_val v) b -> wire_pairs l c ->
    wire_pairs ((k, v) :: l) (a ++ b ++ c).
Definition wire_map (l : list (datum * datum)) (bs : list Z) : Prop :=
  exists n c, leb128 (lenZ l) n /\ wire_pairs l c /\ bs = n ++ c.

Definition storable (e : datum * datum) : Prop :=
  wf_datum (fst e) /\ wf_datum (snd e) /\ serialisable (d_val (fst e)) /\ serialisable (d_val (snd e)).
