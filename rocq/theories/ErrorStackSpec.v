(** What the error stacks contain, as a function of what was called. *)
From Coq Require Import ZArith List Bool.
From Verif Require Import Base ErrorStackModel.
Import ListNotations.
Open Scope Z_scope.

(** A call, its code, the object it made.  Histories have the last call first. *)
Record event := mkEvent { ev_op : op; ev_code : Z; ev_made : option handle }.
Definition trace := list event.

Definition same (x : option handle) (h : handle) : bool :=
  match x with Some h' => Nat.eqb h' h | None => false end.
Definition fine (e : event) : bool := ev_code e =? CCS_RESULT_SUCCESS.

(** The error of a thread. *)
Fixpoint current (l : trace) (t : thread) : option handle :=
  match l with
  | [] => None
  | e :: l' =>
      match ev_op e with
      | OGet t' | OClear t' => if Nat.eqb t' t then None else current l' t
      | OSet t' x => if Nat.eqb t' t && fine e then x else current l' t
      | OThreadError t' _ _ => if Nat.eqb t' t then ev_made e else current l' t
      | _ => current l' t
      end
  end.

(** What an object was made as: a stack with a code and a message, or something else. *)
Fixpoint made (l : trace) (h : handle) : option (option (Z * list Z)) :=
  match l with
  | [] => None
  | e :: l' =>
      if same (ev_made e) h then
        match ev_op e with
        | OThreadError _ c m | OCreate c m => Some (Some (c, match m with Some b => b | None => [] end))
        | _ => Some None
        end
      else made l' h
  end.
Definition is_stack (l : trace) (x : option handle) : bool :=
  match x with
  | Some h => match made l h with Some (Some _) => true | _ => false end
  | None => false
  end.

(** The stack a call pushes to. *)
Definition target (l : trace) (o : op) : option handle :=
  match o with
  | OPush x _ => x
  | OThreadPush t _ => current l t
  | _ => None
  end.
Definition pushed (o : op) : list elem :=
  match o with OPush _ e | OThreadPush _ e => [e] | _ => [] end.

(** The elements of a stack, first pushed first. *)
Fixpoint elements (l : trace) (h : handle) : list elem :=
  match l with
  | [] => []
  | e :: l' => elements l' h ++ (if same (target l' (ev_op e)) h && fine e then pushed (ev_op e) else [])
  end.
(** Memory ran out in a push to it. *)
Fixpoint spoiled (l : trace) (h : handle) : bool :=
  match l with
  | [] => false
  | e :: l' => spoiled l' h || (same (target l' (ev_op e)) h && (ev_code e =? ERR_OUT_OF_MEMORY))
  end.

Definition one (b : bool) : Z := if b then 1 else 0.
(** The references to an object: one when it is made, the ones retained, minus the
    ones released and the errors of threads that were cleared or replaced. *)
Fixpoint references (l : trace) (h : handle) : Z :=
  match l with
  | [] => 0
  | e :: l' =>
      references l' h + one (same (ev_made e) h) +
      match ev_op e with
      | ORetain h' => one (Nat.eqb h' h)
      | ORelease h' => - one (Nat.eqb h' h)
      | OClear t | OThreadError t _ _ => - one (same (current l' t) h)
      | OSet t _ => - one (fine e && same (current l' t) h)
      | _ => 0
      end
  end.
(** The ones that belong to threads, of which there are [n]. *)
Definition by_threads (l : trace) (n : nat) (h : handle) : Z :=
  fold_right (fun t r => one (same (current l t) h) + r) 0 (seq 0 n).

(** ** Correct use *)

Definition live (l : trace) (x : option handle) : Prop :=
  match x with Some h => 0 < references l h | None => True end.
Definition mine (l : trace) (n : nat) (x : option handle) : Prop :=
  match x with Some h => by_threads l n h < references l h | None => True end.
Definition intact (l : trace) (x : option handle) : Prop :=
  match x with Some h => spoiled l h = false | None => True end.

(** Live handles are passed; what is released, or given to a thread, is one's own;
    a stack is not pushed to after memory ran out in a push to it. *)
Definition permitted (l : trace) (n : nat) (o : op) : Prop :=
  match o with
  | OGet t | OClear t | OThreadError t _ _ => (t < n)%nat
  | OSet t x => (t < n)%nat /\ live l x /\ mine l n x
  | OThreadPush t _ => (t < n)%nat /\ intact l (current l t)
  | OCreate _ _ | OOther => True
  | OPush x _ => live l x /\ intact l x
  | OElems x _ | OMessage x _ | OCode x _ => live l x
  | ORetain h => 0 < references l h < INT32_MAX
  | ORelease h => 0 < references l h /\ by_threads l n h < references l h
  end.

Inductive history (n : nat) : trace -> st -> Prop :=
| begins : forall mem, history n [] (start n mem)
| continues : forall l s o code h v s1,
    history n l s -> permitted l n o -> step o s = Ok (code, h, v, s1) ->
    history n (mkEvent o code h :: l) s1.

(** ** What calls must return *)

(** Memory may run out only if there is a shortage. *)
Definition or_memory (s : st) (code : Z) (answer : Z) : Prop :=
  code = answer \/ (code = ERR_OUT_OF_MEMORY /\ s_mem s <> []).

Definition answers (l : trace) (s : st) (o : op) (code : Z) (h : option handle) (v : value) : Prop :=
  match o with
  | OGet t => code = CCS_RESULT_SUCCESS /\ h = None /\ v = VStack (current l t)
  | OClear _ | ORetain _ | ORelease _ => code = CCS_RESULT_SUCCESS /\ h = None /\ v = VNone
  | OSet _ x =>
      code = (if is_stack l x then CCS_RESULT_SUCCESS else ERR_INVALID_OBJECT) /\ h = None /\ v = VNone
  | OThreadError _ _ _ | OCreate _ _ =>
      v = VNone /\ or_memory s code CCS_RESULT_SUCCESS /\
      (code = CCS_RESULT_SUCCESS -> exists k, h = Some k /\ made l k = None /\ references l k = 0 /\ elements l k = [] /\ spoiled l k = false) /\
      (code = ERR_OUT_OF_MEMORY -> h = None)
  | OThreadPush _ _ | OPush _ _ =>
      h = None /\ v = VNone /\
      if is_stack l (target l o) then or_memory s code CCS_RESULT_SUCCESS else code = ERR_INVALID_OBJECT
  | OElems x null =>
      h = None /\
      match x with
      | Some k => match made l k with
                  | Some (Some _) => if null then code = ERR_INVALID_VALUE /\ v = VNone
                                     else code = CCS_RESULT_SUCCESS /\ v = VElems (elements l k)
                  | _ => code = ERR_INVALID_OBJECT /\ v = VNone
                  end
      | None => code = ERR_INVALID_OBJECT /\ v = VNone
      end
  | OMessage x null =>
      h = None /\
      match x with
      | Some k => match made l k with
                  | Some (Some (_, m)) => if null then code = ERR_INVALID_VALUE /\ v = VNone
                                          else code = CCS_RESULT_SUCCESS /\ v = VMessage m
                  | _ => code = ERR_INVALID_OBJECT /\ v = VNone
                  end
      | None => code = ERR_INVALID_OBJECT /\ v = VNone
      end
  | OCode x null =>
      h = None /\
      match x with
      | Some k => match made l k with
                  | Some (Some (c, _)) => if null then code = ERR_INVALID_VALUE /\ v = VNone
                                          else code = CCS_RESULT_SUCCESS /\ v = VCode c
                  | _ => code = ERR_INVALID_OBJECT /\ v = VNone
                  end
      | None => code = ERR_INVALID_OBJECT /\ v = VNone
      end
  | OOther =>
      code = CCS_RESULT_SUCCESS /\ v = VNone /\
      exists k, h = Some k /\ made l k = None /\ references l k = 0 /\ elements l k = [] /\ spoiled l k = false
  end.

(** ** Functions of the library *)

(** The code a function returns. *)
Inductive returns : lib -> Z -> Prop :=
| r_return : forall c, returns (LReturn c) c
| r_raise : forall c m l, returns (LRaise c m l) c
| r_raise_goto : forall c m l clean d, returns clean d -> returns (LRaiseGoto c m l clean) c
| r_fail : forall l sub rest c, returns sub c -> c < 0 -> returns (LValidate l sub rest) c
| r_pass : forall l sub rest d c, returns sub d -> 0 <= d -> returns rest c -> returns (LValidate l sub rest) c
| r_fail_goto : forall l sub clean rest c d, returns sub c -> c < 0 -> returns clean d ->
    returns (LValidateGoto l sub clean rest) c
| r_pass_goto : forall l sub clean rest d c, returns sub d -> 0 <= d -> returns rest c ->
    returns (LValidateGoto l sub clean rest) c
| r_ignore : forall sub rest d c, returns sub d -> returns rest c -> returns (LIgnore sub rest) c.

(** No error is raised. *)
Fixpoint quiet (a : lib) : Prop :=
  match a with
  | LReturn c => 0 <= c
  | LRaise _ _ _ | LRaiseGoto _ _ _ _ => False
  | LValidate _ sub rest | LValidateGoto _ sub _ rest => quiet sub /\ quiet rest
  | LIgnore sub rest => quiet sub /\ quiet rest
  end.

(** Functions that raise the errors they return, and whose error paths raise none. *)
Fixpoint diligent (a : lib) : Prop :=
  match a with
  | LReturn c => 0 <= c
  | LRaise c _ _ => c < 0
  | LRaiseGoto c _ _ clean => c < 0 /\ quiet clean
  | LValidate _ sub rest => diligent sub /\ diligent rest
  | LValidateGoto _ sub clean rest => diligent sub /\ quiet clean /\ diligent rest
  | LIgnore sub rest => diligent sub /\ diligent rest
  end.

(** No error of a call whose result is not looked at is left behind. *)
Fixpoint heedful (a : lib) : Prop :=
  match a with
  | LReturn _ | LRaise _ _ _ | LRaiseGoto _ _ _ _ => True
  | LValidate _ sub rest | LValidateGoto _ sub _ rest => heedful sub /\ heedful rest
  | LIgnore sub rest => quiet sub /\ heedful rest
  end.

(** The error a function fails with: code, message, and the places from the one
    that raised it to the outermost one. *)
Inductive fails : lib -> Z -> list Z -> list elem -> Prop :=
| f_raise : forall c m l, fails (LRaise c m l) c m [l]
| f_raise_goto : forall c m l clean, fails (LRaiseGoto c m l clean) c m [l]
| f_sub : forall l sub rest c m p, fails sub c m p -> c < 0 -> fails (LValidate l sub rest) c m (p ++ [l])
| f_rest : forall l sub rest d c m p, returns sub d -> 0 <= d -> fails rest c m p ->
    fails (LValidate l sub rest) c m p
| f_sub_goto : forall l sub clean rest c m p, fails sub c m p -> c < 0 ->
    fails (LValidateGoto l sub clean rest) c m (p ++ [l])
| f_rest_goto : forall l sub clean rest d c m p, returns sub d -> 0 <= d -> fails rest c m p ->
    fails (LValidateGoto l sub clean rest) c m p
| f_ignore : forall sub rest d c m p, returns sub d -> fails rest c m p -> fails (LIgnore sub rest) c m p.

(** The primitive calls a function of thread [t] made, last first, are all its own. *)
Definition own (t : thread) (l : trace) : Prop :=
  forall e, In e l -> match ev_op e with
                      | OThreadError t' _ _ | OThreadPush t' _ => t' = t
                      | _ => False
                      end.

(** What was made before stays as it was: the messages, codes and elements of all
    stacks, and the references to all objects but the error thread [t] had. *)
Definition untouched (t : thread) (l l' : trace) : Prop :=
  forall h, made l h <> None ->
    made l' h = made l h /\ elements l' h = elements l h /\
    (current l t <> Some h -> current l' t <> Some h /\ references l' h = references l h).

(** After [l] the error of thread [t], not made in [l0], has this code and message,
    these elements and one reference. *)
Definition holds (l0 l : trace) (t : thread) (c : Z) (m : list Z) (p : list elem) : Prop :=
  exists h, current l t = Some h /\ made l h = Some (Some (c, m)) /\ elements l h = p /\ references l h = 1 /\
            spoiled l h = false /\ made l0 h = None.

(** The thread a call is about. *)
Definition about (o : op) : option thread :=
  match o with
  | OGet t | OClear t | OSet t _ | OThreadError t _ _ => Some t
  | _ => None
  end.
