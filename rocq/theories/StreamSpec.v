(** Reading and writing objects through file descriptors, independently of how the
    bytes are cut into pieces. *)
From Coq Require Import ZArith List Bool.
From Verif Require Import Base Datum CodecModel CodecSpec FrameModel FrameSpec StreamModel.
Import ListNotations.
Open Scope Z_scope.

(** The stream begins with the header of an object of [n] bytes in total. *)
Definition announces (stream : list Z) (n : Z) : Prop :=
  0 <= n < 2 ^ 64 /\ exists tl, stream = [67; 67; 83; 0] ++ word 8 n ++ [1] ++ tl.

(** No read or write fails (other than by asking to try again). *)
Definition calm (sched : list event) : Prop := ~ In EFail sched.
(** How often bytes are transferred, and how often the caller is told to try again. *)
Definition transfers (sched : list event) : Z :=
  lenZ (filter (fun v => match v with EData _ => true | _ => false end) sched).
Definition delays (sched : list event) : Z :=
  lenZ (filter (fun v => match v with EAgain => true | _ => false end) sched).

(** [n] bytes were read, everything allocated was freed, and the events used up are
    the first ones. *)
Definition used (n : Z) (e e1 : env) : Prop :=
  e_stream e1 = skipn (Z.to_nat n) (e_stream e) /\ e_blocks e1 = e_blocks e /\
  exists evs, e_sched e = evs ++ e_sched e1.

(** The call returned what reading the first [n] bytes of the stream from memory
    returns. *)
Definition as_memory {A : Type} (le : bool) (body : rstate -> res (A * rstate)) (n : Z) (e : env)
  (r : run (Z * option A * option fdstate * env)) : Prop :=
  match deserialize_memory le body (firstn (Z.to_nat n) (e_stream e)) n with
  | Ok a => exists e1, r = Done (CCS_RESULT_SUCCESS, Some a, None, e1) /\ used n e e1
  | Err c => exists e1, r = Done (c, None, None, e1) /\ used n e e1
  | UB u => r = Undef u
  end.

(** The block a suspended operation holds. *)
Definition held {B : Type} (st : option B) : Z := match st with Some _ => 1 | None => 0 end.
