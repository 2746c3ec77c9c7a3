(** Properties of tree spaces. *)
From Coq Require Import ZArith List Bool Lia Arith.
From Verif Require Import Base Datum CodecModel CodecSpec ParamSpec FloatModel TreeModel TreeSpec TreeFacts TreeCodecSpec RngModel RngSpec RngProps TreeSpaceModel TreeSpaceSpec TreeSpaceProofs TreeSpaceCodec.
Import ListNotations.
Open Scope Z_scope.

(** C68: a position in a dynamic space is followed through the children that exist; each child
    that is missing is asked for once and attached. The tree only grows. *)
Theorem C68_node : forall S (v : tvector S) h sp st, reached h -> alive h (ts_tree S sp) ->
  forall l, behaves S v -> ts_kind S sp = KDynamic S v st ->
  exists r h' st', space_node S h sp l = (r, (h', with_state S sp v st')) /\ explores S v (h, st) (ts_tree S sp) l r (h', st') /\
    reached h' /\ grown h h' /\ match r with Ok d => designates h' (ts_tree S sp) l d | Err _ => True | UB _ => False end.
Proof. exact space_explores. Qed.
Print Assumptions C68_node.
(** Checking a position explores in the same way ... *)
Theorem C68_check : forall S (v : tvector S) h sp st, reached h -> alive h (ts_tree S sp) ->
  forall l, behaves S v -> ts_kind S sp = KDynamic S v st ->
  exists b r h' st', explores S v (h, st) (ts_tree S sp) l r (h', st') /\ reached h' /\ grown h h' /\
    space_check S h sp l = (b, (h', with_state S sp v st')) /\
    ((exists d, r = Ok d /\ b = Ok true) \/ (strays h' (ts_tree S sp) l /\ b = Ok false) \/
     (exists e, r = Err e /\ ~ strays h' (ts_tree S sp) l /\ b = Err e)).
Proof. exact space_checks. Qed.
Print Assumptions C68_check.
(** ... and so does reading the values along it. *)
Theorem C68_values : forall S (v : tvector S) h sp st, reached h -> alive h (ts_tree S sp) ->
  forall l size, behaves S v -> ts_kind S sp = KDynamic S v st ->
  ((size <= length l)%nat /\ space_values S h sp l size = (Err ERR_INVALID_VALUE, (h, sp))) \/
  ((length l < size)%nat /\ exists r h' st', explores S v (h, st) (ts_tree S sp) l r (h', st') /\ reached h' /\ grown h h' /\
    match r with
    | Ok _ => exists vs, values_along h' (ts_tree S sp) l vs /\
                space_values S h sp l size = (Ok (vs ++ repeat ccs_none (size - length vs)), (h', with_state S sp v st'))
    | Err e => space_values S h sp l size = (Err e, (h', with_state S sp v st'))
    | UB _ => False
    end).
Proof. exact space_gives. Qed.
Print Assumptions C68_values.
(** What exists is found without asking the application, ... *)
Theorem C68_there : forall S (v : tvector S) h sp st, reached h -> alive h (ts_tree S sp) ->
  forall l d vs, designates h (ts_tree S sp) l d -> values_along h (ts_tree S sp) l vs ->
  ts_kind S sp = KDynamic S v st -> behaves S v ->
  space_node S h sp l = (Ok d, (h, sp)) /\ space_check S h sp l = (Ok true, (h, sp)) /\
  forall size, (length l < size)%nat -> space_values S h sp l size = (Ok (vs ++ repeat ccs_none (size - length vs)), (h, sp)).
Proof. exact space_there. Qed.
Print Assumptions C68_there.
(** ... so a position that was found is found again, without change. *)
Theorem C68_again : forall S (v : tvector S) h sp st, reached h -> alive h (ts_tree S sp) ->
  forall l d h' sp', behaves S v -> ts_kind S sp = KDynamic S v st -> space_node S h sp l = (Ok d, (h', sp')) ->
  space_node S h' sp' l = (Ok d, (h', sp')) /\ space_check S h' sp' l = (Ok true, (h', sp')).
Proof. exact space_again. Qed.
Print Assumptions C68_again.
(** A sampled position is valid when the application always gives the children. *)
Theorem C68_sampled : forall S (v : tvector S) h sp st, reached h -> alive h (ts_tree S sp) ->
  forall fuel us l rest, behaves S v -> generous S v -> ts_kind S sp = KDynamic S v st -> walk fuel h (ts_tree S sp) us = Ok (l, rest) ->
  exists h' sp', space_check S h sp l = (Ok true, (h', sp')) /\ exists d, space_node S h sp l = (Ok d, (h', sp')).
Proof. exact space_sampled. Qed.
Print Assumptions C68_sampled.
(** A static space answers from its tree and changes nothing. *)
Theorem C68_static : forall S h (sp : tspace S) l size, reached h -> alive h (ts_tree S sp) -> ts_kind S sp = KStatic S ->
  exists n b vs, space_node S h sp l = (n, (h, sp)) /\ space_check S h sp l = (Ok b, (h, sp)) /\ space_values S h sp l size = (vs, (h, sp)) /\
    ((exists d ds, designates h (ts_tree S sp) l d /\ values_along h (ts_tree S sp) l ds /\ n = Ok d /\ b = true /\
        vs = if (length l <? size)%nat then Ok (ds ++ repeat ccs_none (size - length ds)) else Err ERR_INVALID_VALUE) \/
     (breaks h (ts_tree S sp) l /\ n = Err ERR_INVALID_TREE /\ (b = true <-> dangling h (ts_tree S sp) l) /\
        vs = if (length l <? size)%nat then Err ERR_INVALID_TREE else Err ERR_INVALID_VALUE) \/
     (strays h (ts_tree S sp) l /\ n = Err ERR_OUT_OF_BOUNDS /\ b = false /\
        vs = if (length l <? size)%nat then Err ERR_OUT_OF_BOUNDS else Err ERR_INVALID_VALUE)).
Proof. exact static_space. Qed.
Print Assumptions C68_static.

(** An application that makes a node of two children for each child asked for, counts the
    nodes it made, and saves that count. *)
Definition maker : tvector nat :=
  mkVector nat
    (fun w t i => match step (fst w) (OCreate 2 (ccs_int (Z.of_nat (snd w) mod 100))) with
                  | Ok h => (Ok (Some (length (fst w))), (h, S (snd w)))
                  | Err e => (Err e, w)
                  | UB u => (UB u, w)
                  end)
    (Some (fun n => [Z.of_nat n mod 256]))
    (Some (fun n b => match b with [x] => Ok (Z.to_nat x) | _ => Ok n end)).
Lemma maker_child : forall w t i, reached (fst w) ->
  exists h', tv_child nat maker w t i = (Ok (Some (length (fst w))), (h', S (snd w))) /\ reached h' /\ keeps_nodes (fst w) h' /\
    is_root h' (length (fst w)) /\ ~ alive (fst w) (length (fst w)).
Proof.
  intros [h n] t i R. cbn [fst snd maker tv_child] in *. pose proof (Z.mod_pos_bound (Z.of_nat n) 100 ltac:(lia)) as MB.
  generalize dependent (Z.of_nat n mod 100). intros z MB. set (o := OCreate 2 (ccs_int z)).
  assert (AL : allowed h o). { split; [lia|]. split; [|exact I]. unfold CmpSpec.wf_datum. cbn [ccs_int d_val wf_value]. unfold in_signed. lia. }
  pose proof (operations h o R AL) as OP. destruct (step h o) as [h'|e|u] eqn:E; inversion OP; subst; [|cbn in *; contradiction].
  exists h'. split; [reflexivity|]. split; [exact (reached_ok h o h' R AL E)|].
  assert (NA : ~ alive h (length h)) by (intro X; unfold alive in X; destruct (seen h (length h)) eqn:Q; [apply TreeCodec.seen_len in Q; lia|congruence]).
  match goal with H : forall x, seen h' x = _ |- _ => rename H into HS end. split; [|split; [|exact NA]].
  - intros x A. rewrite HS. unfold changed. destruct (Nat.eqb_spec x (length h)) as [->|]; [contradiction|reflexivity].
  - eexists. split; [rewrite HS; unfold changed; now rewrite Nat.eqb_refl|reflexivity].
Qed.
Lemma maker_ok : behaves nat maker /\ generous nat maker.
Proof.
  split.
  - intros w t i vw R E N. destruct (maker_child w t i R) as (h' & -> & R' & K & RT & NA). cbn [fst]. split; [exact R'|]. split; [exact K|].
    split; [|exact NA]. destruct RT as (v & E' & _). unfold alive. congruence.
  - intros w t i vw R E N. destruct (maker_child w t i R) as (h' & -> & R' & K & RT & NA). eauto.
Qed.
Definition root_heap : heap := match step [] (OCreate 2 (ccs_int 50)) with Ok h => h | _ => [] end.
Lemma root_heap_reached : reached root_heap.
Proof.
  apply (reached_ok [] (OCreate 2 (ccs_int 50))); [constructor| |reflexivity]. split; [lia|]. split; [|exact I]. split; cbn; lia.
Qed.
Definition dyn_space : tspace nat := mkSpace nat 4096 [115] used_rng 0 (KDynamic nat maker 7%nat) (Some [42]).
Definition static_sp : tspace nat := mkSpace nat 4096 [115] used_rng 0 (KStatic nat) (Some [42]).
Example C68_ex : alive root_heap 0 /\
  match space_values nat root_heap dyn_space [1; 0]%nat 4 with
  | (Ok vs, (h, sp)) => vs = [ccs_int 50; ccs_int 7; ccs_int 8; ccs_none] /\ length h = 3%nat /\ ts_kind nat sp = KDynamic nat maker 9%nat /\
      space_node nat h sp [1; 0]%nat = (Ok 2%nat, (h, sp)) /\ space_check nat h sp [2]%nat = (Ok false, (h, sp)) /\
      space_node nat root_heap static_sp [1]%nat = (Err ERR_INVALID_TREE, (root_heap, static_sp))
  | _ => False
  end.
Proof. split; [discriminate|]. vm_compute. repeat split. Qed.

(** C52: a tree space can be written ... *)
Theorem C52_written : forall S types le h (sp : tspace S) ty, table types -> of_table types (ts_rng S sp) ty ->
  reached h -> storable_heap h -> alive h (ts_tree S sp) -> storable_space S sp ->
  exists head sb ub, wire_space S le ty h sp head sb ub /\
    encodes (ser_space S types le h sp) (head ++ sb ++ ub) /\ size_space S types le h sp = Ok (lenZ (head ++ sb ++ ub)).
Proof. exact space_written. Qed.
Print Assumptions C52_written.
(** ... and read. A static space gets its name, tree and user data back, and a new generator
    of the default type. *)
Theorem C52_static : forall S types types' le le' (sp : tspace S) ty ty' t' dflt dty h T head sb ub gid v st h2,
  table types -> of_table types (ts_rng S sp) ty -> reached h -> storable_heap h -> represents h (ts_tree S sp) T -> storable_space S sp ->
  ts_kind S sp = KStatic S -> wire_space S le ty h sp head sb ub ->
  table types' -> nth_error types' t' = Some ty' -> t_name ty' = t_name ty -> nth_error types' dflt = Some dty -> reached h2 ->
  exists t1 h1,
    (forall tl n, lenZ (head ++ sb ++ ub) <= n <= lenZ ((head ++ sb ++ ub) ++ tl) -> n < 2 ^ 64 ->
       deser_space S types' dflt le' gid v st h2 (mkR ((head ++ sb ++ ub) ++ tl) n) =
         Ok ((mkSpace S (ts_id S sp) (ts_name S sp) (mkRng gid dflt (t_init dty) None) t1 (KStatic S) (restored_ud (ts_ud S sp)), h1),
             mkR tl (n - lenZ (head ++ sb ++ ub)))) /\
    (plain T -> ud_bytes (g_ud (ts_rng S sp)) = [] -> ud_bytes (ts_ud S sp) = [] ->
       forall p q tl, head ++ sb ++ ub = p ++ q -> q <> [] -> lenZ p < 2 ^ 64 ->
       deser_space S types' dflt le' gid v st h2 (mkR (p ++ tl) (lenZ p)) = Err ERR_NOT_ENOUGH_DATA) /\
    reached h1 /\ represents h1 t1 (restored_tree T) /\ is_root h1 t1 /\ (forall x, alive h2 x -> seen h1 x = seen h2 x).
Proof. exact static_restored. Qed.
Print Assumptions C52_static.
(** A dynamic space gets its name, tree and generator back. Its application is asked to restore
    its state from no bytes; what it saved is given as user data, and the user data stay in the
    buffer. *)
Theorem C52_dynamic : forall S types types' le le' (sp : tspace S) ty ty' t' dflt dty h T head sb ub gid vs st0 vr st st' h2,
  table types -> of_table types (ts_rng S sp) ty -> reached h -> storable_heap h -> represents h (ts_tree S sp) T -> storable_space S sp ->
  ts_kind S sp = KDynamic S vs st0 -> wire_space S le ty h sp head sb ub ->
  table types' -> nth_error types' t' = Some ty' -> t_name ty' = t_name ty -> nth_error types' dflt = Some dty -> reached h2 ->
  match tv_load S vr with Some f => f st [] = Ok st' | None => st' = st end ->
  exists t1 h1,
    (forall tl n, lenZ (head ++ sb) <= n <= lenZ ((head ++ sb) ++ tl) -> n < 2 ^ 64 ->
       deser_space S types' dflt le' gid (Some vr) st h2 (mkR ((head ++ sb) ++ tl) n) =
         Ok ((mkSpace S (ts_id S sp) (ts_name S sp) (restored_rng le le' ty' t' (ts_rng S sp)) t1 (KDynamic S vr st')
                (restored_ud (match tv_save S vs with Some f => Some (f st0) | None => None end)), h1),
             mkR tl (n - lenZ (head ++ sb)))) /\
    (plain T -> ud_bytes (g_ud (ts_rng S sp)) = [] -> match tv_save S vs with Some f => f st0 = [] | None => True end ->
       forall p q tl, head ++ sb = p ++ q -> q <> [] -> lenZ p < 2 ^ 64 ->
       deser_space S types' dflt le' gid (Some vr) st h2 (mkR (p ++ tl) (lenZ p)) = Err ERR_NOT_ENOUGH_DATA) /\
    reached h1 /\ represents h1 t1 (restored_tree T) /\ is_root h1 t1 /\ (forall x, alive h2 x -> seen h1 x = seen h2 x).
Proof. exact dynamic_restored. Qed.
Print Assumptions C52_dynamic.
(** Without callbacks, or when the application refuses, there is no space. *)
Theorem C52_refused : forall S types types' le le' (sp : tspace S) ty ty' t' dflt dty h T head sb ub gid vs st0 v st e h2,
  table types -> of_table types (ts_rng S sp) ty -> reached h -> storable_heap h -> represents h (ts_tree S sp) T -> storable_space S sp ->
  ts_kind S sp = KDynamic S vs st0 -> wire_space S le ty h sp head sb ub ->
  table types' -> nth_error types' t' = Some ty' -> t_name ty' = t_name ty -> nth_error types' dflt = Some dty -> reached h2 ->
  match v with None => e = ERR_INVALID_VALUE | Some vr => exists f, tv_load S vr = Some f /\ f st [] = Err e end ->
  forall tl n, lenZ head <= n <= lenZ (head ++ tl) -> n < 2 ^ 64 -> deser_space S types' dflt le' gid v st h2 (mkR (head ++ tl) n) = Err e.
Proof. exact dynamic_refused. Qed.
Print Assumptions C52_refused.

Definition written (sp : tspace nat) : list Z :=
  match ser_space nat gsl_table true root_heap sp (mkW [] (repeat 0 100) 100) with Ok s => w_done s | _ => [] end.
Example C52_ex : of_table gsl_table used_rng (mkGtype [116; 97; 117; 115] [5; 5]) /\ storable_space nat dyn_space /\
  match deser_space nat gsl_table 0 true 8192 (Some maker) 3%nat [] (mkR (written static_sp) (lenZ (written static_sp))) with
  | Ok ((sp, h), s) => ts_name nat sp = [115] /\ ts_ud nat sp = Some [42] /\ h = root_heap /\ r_size s = 0
  | _ => False
  end.
Proof.
  split; [split; reflexivity|]. split; [|vm_compute; repeat split].
  split; [split; cbv; congruence|]. split; [split; [repeat constructor; cbv; split; congruence|reflexivity]|]. split; [split; [split; cbv; congruence|reflexivity]|]. split; reflexivity.
Qed.
(** The generator of a static space is not restored: it was about to give 9, it gives 7. *)
Theorem C52_generator_refuted : exists sp h s, deser_space nat gsl_table 0 true 8192 None 0%nat [] (mkR (written static_sp) (lenZ (written static_sp))) = Ok ((sp, h), s) /\
  draws gsl_draw 3 (ts_rng nat static_sp) = [9; 10; 11] /\ draws gsl_draw 3 (ts_rng nat sp) = [7; 8; 9].
Proof. do 3 eexists. split; [vm_compute; reflexivity|]. split; vm_compute; reflexivity. Qed.
Print Assumptions C52_generator_refuted.
(** Neither the state nor the user data of a dynamic space are: the count was 7 and the user
    data [42]; the count is the 3 it was started with, the user data are the count that was
    saved, and two bytes remain. *)
Theorem C52_state_refuted : exists sp h, deser_space nat gsl_table 0 true 8192 (Some maker) 3%nat [] (mkR (written dyn_space) (lenZ (written dyn_space))) = Ok ((sp, h), mkR [1; 42] 2) /\
  ts_kind nat dyn_space = KDynamic nat maker 7%nat /\ ts_kind nat sp = KDynamic nat maker 3%nat /\
  ts_ud nat dyn_space = Some [42] /\ ts_ud nat sp = Some [7] /\ draws gsl_draw 3 (ts_rng nat sp) = draws gsl_draw 3 (ts_rng nat dyn_space).
Proof. do 2 eexists. split; [vm_compute; reflexivity|]. repeat split. Qed.
Print Assumptions C52_state_refuted.
