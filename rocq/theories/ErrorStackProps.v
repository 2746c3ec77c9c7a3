(** Property C54: error stacks. *)
From Coq Require Import ZArith List Bool Lia.
From Verif Require Import Base ErrorStackModel ErrorStackSpec ErrorStackExec.
Import ListNotations.
Open Scope Z_scope.

(** no call of a correct application is undefined, and each returns what the calls
    before it determine *)
Theorem C54_defined : forall n l s o, history n l s -> permitted l n o ->
  exists code h v s1, step o s = Ok (code, h, v, s1).
Proof. exact step_defined. Qed.
Print Assumptions C54_defined.
Theorem C54_answers : forall n l s o code h v s1, history n l s -> permitted l n o ->
  step o s = Ok (code, h, v, s1) -> answers l s o code h v.
Proof. exact step_answers. Qed.
Print Assumptions C54_answers.

(** objects exist while there are references, and stacks hold what was put in them *)
Theorem C54_objects : forall n l s h, history n l s ->
  0 <= references l h /\
  (0 < references l h -> exists b, deref s h = Ok b /\ b_ref b = references l h /\
     match b_stack b with
     | Some k => made l h = Some (Some (k_code k, k_msg k)) /\ k_elems k = elements l h
     | None => is_stack l (Some h) = false
     end) /\
  (references l h = 0 -> deref s h = UB UBBounds).
Proof. exact history_objects. Qed.
Print Assumptions C54_objects.

(** each thread has its own error *)
Theorem C54_current : forall n l s t, history n l s -> get_current s t = current l t.
Proof. exact history_current. Qed.
Print Assumptions C54_current.
Theorem C54_errors : forall n l s t h, history n l s -> current l t = Some h ->
  is_stack l (Some h) = true /\ 0 < references l h.
Proof. exact history_errors. Qed.
Print Assumptions C54_errors.
Theorem C54_owned : forall n l s h, history n l s -> by_threads l n h <= references l h.
Proof. exact history_owned. Qed.
Print Assumptions C54_owned.
Theorem C54_isolated : forall n l s o code h v s1 t, history n l s -> permitted l n o ->
  step o s = Ok (code, h, v, s1) -> about o <> Some t -> get_current s1 t = get_current s t.
Proof. exact isolated. Qed.
Print Assumptions C54_isolated.

(** a function of the library that fails leaves a new error of its thread, with the
    code it returns, the message of the place that raised it, and the places the error
    passed through, first to last; no other thread's error and no earlier stack changes *)
Theorem C54_trace : forall n l s t a, history n l s -> s_mem s = [] -> (t < n)%nat -> diligent a ->
  exists c s1 l', exec t a s = Ok (c, s1) /\ returns a c /\ own t l' /\ history n (l' ++ l) s1 /\
    untouched t l (l' ++ l) /\
    (forall t', t' <> t -> get_current s1 t' = get_current s t') /\
    (c < 0 -> exists m p, fails a c m p /\ holds l (l' ++ l) t c m p).
Proof. exact runs. Qed.
Print Assumptions C54_trace.

(** one that succeeds leaves everything, earlier errors included *)
Theorem C54_success : forall t a s c s1, diligent a -> heedful a -> exec t a s = Ok (c, s1) -> 0 <= c -> s1 = s.
Proof. exact success_keeps. Qed.
Print Assumptions C54_success.

(** ** Examples *)

Ltac permits := cbn; repeat split; try lia; auto.
Lemma later : forall n l s o code h v s1, history n l s -> permitted l n o -> step o s = Ok (code, h, v, s1) ->
  history n (mkEvent o code h :: l) s1.
Proof. exact (continues). Qed.

Definition p1 := mkElem 1 10 100.
Definition p2 := mkElem 2 20 200.
Definition p3 := mkElem 3 30 300.
Definition msg1 := [98; 97; 100].

(** a function that fails below two others, in the second of two threads *)
Definition nested : lib :=
  LValidateGoto p3 (LValidate p2 (LRaise ERR_INVALID_VALUE msg1 p1) (LReturn 0)) (LReturn 0) (LReturn 0).
Example nested_diligent : diligent nested.
Proof. unfold nested. cbn. unfold ERR_INVALID_VALUE. lia. Qed.
Example nested_ex :
  exec 1%nat nested (start 2%nat []) =
  Ok (ERR_INVALID_VALUE, mkSt [Some (mkObject 1 (Some (mkStack ERR_INVALID_VALUE msg1 [p1; p2; p3] 8 8)))] [None; Some 0%nat] []).
Proof. vm_compute. reflexivity. Qed.
Example nested_fails : fails nested ERR_INVALID_VALUE msg1 [p1; p2; p3].
Proof.
  unfold nested. apply (f_sub_goto p3 _ (LReturn 0) (LReturn 0) ERR_INVALID_VALUE msg1 [p1; p2]); [|reflexivity].
  apply (f_sub p2 _ (LReturn 0) ERR_INVALID_VALUE msg1 [p1]); [|reflexivity]. constructor.
Qed.

(** an application takes the error and reads it *)
Definition taken : trace :=
  [mkEvent (OElems (Some 0%nat) false) 0 None; mkEvent (OGet 1%nat) 0 None; mkEvent (OThreadPush 1%nat p2) 0 None;
   mkEvent (OThreadPush 1%nat p1) 0 None; mkEvent (OThreadError 1%nat ERR_INVALID_VALUE (Some msg1)) 0 (Some 0%nat)].
Example taken_ex : exists s, history 2%nat taken s /\ current taken 1%nat = None /\ references taken 0%nat = 1 /\
  elements taken 0%nat = [p1; p2] /\ permitted taken 2%nat (ORelease 0%nat).
Proof.
  eexists. split; [|repeat split; vm_compute; reflexivity].
  unfold taken. eapply later; [eapply later; [eapply later; [eapply later; [eapply later; [constructor 1 with (mem := [])|permits|vm_compute; reflexivity]|permits|vm_compute; reflexivity]|permits|vm_compute; reflexivity]|permits|vm_compute; reflexivity]|permits|vm_compute; reflexivity].
Qed.

(** ** Exceptions *)

(** a function that returns an error it has not raised (that of a callback) adds its
    place to the error of an earlier call, which has another code *)
Theorem C54_stale_refuted : exists l s a c s1 k, history 1%nat l s /\ s_mem s = [] /\
  exec 0%nat a s = Ok (c, s1) /\ c < 0 /\ returns a c /\ a = LValidate p3 (LReturn c) (LReturn 0) /\
  get_current s1 0%nat = Some 0%nat /\ deref s1 0%nat = Ok (mkObject 1 (Some k)) /\ k_code k <> c /\ k_elems k = [p1; p3].
Proof.
  exists [mkEvent (OThreadPush 0%nat p1) 0 None; mkEvent (OThreadError 0%nat ERR_INVALID_VALUE (Some msg1)) 0 (Some 0%nat)].
  eexists. exists (LValidate p3 (LReturn ERR_INVALID_OBJECT) (LReturn 0)), ERR_INVALID_OBJECT. do 2 eexists.
  split; [eapply later; [eapply later; [constructor 1 with (mem := [])|permits|vm_compute; reflexivity]|permits|vm_compute; reflexivity]|].
  split; [reflexivity|]. split; [vm_compute; reflexivity|]. split; [reflexivity|]. split; [constructor; [constructor|reflexivity]|].
  split; [reflexivity|]. split; [reflexivity|]. split; [vm_compute; reflexivity|]. split; [discriminate|reflexivity].
Qed.
Print Assumptions C54_stale_refuted.

(** after a push that ran out of memory the next push writes out of bounds *)
Theorem C54_memory_refuted : exists l s, history 1%nat l s /\ live l (current l 0%nat) /\ is_stack l (current l 0%nat) = true /\
  step (OThreadPush 0%nat p2) s = UB UBBounds.
Proof.
  exists [mkEvent (OThreadPush 0%nat p1) ERR_OUT_OF_MEMORY None; mkEvent (OThreadError 0%nat ERR_INVALID_VALUE (Some msg1)) 0 (Some 0%nat)].
  eexists. split; [eapply later; [eapply later; [constructor 1 with (mem := [true; true; false])|permits|vm_compute; reflexivity]|permits|vm_compute; reflexivity]|].
  split; [vm_compute; reflexivity|]. split; vm_compute; reflexivity.
Qed.
Print Assumptions C54_memory_refuted.
