(** Properties of tree configurations. *)
From Coq Require Import ZArith List Bool Lia Arith.
From Verif Require Import Base Datum CodecModel CodecSpec CmpModel CmpSpec ParamSpec TreeModel TreeSpec TreeFacts TreeCodecSpec RngModel TreeSpaceModel TreeSpaceSpec TreeSpaceProps TreeConfModel TreeConfSpec TreeConfProofs.
Import ListNotations.
Open Scope Z_scope.

(** C69: configurations are ordered by space, then number of steps, then steps; the order
    distinguishes all but configurations of the same space and position. *)
Theorem C69_order : forall a b, consistent a b -> exists c, conf_cmp a b = Ok c /\ (c = -1 \/ c = 0 \/ c = 1) /\
  (c = -1 <-> lex (conf_key a) (conf_key b)) /\ (c = 1 <-> lex (conf_key b) (conf_key a)) /\
  (c = 0 <-> tc_space a = tc_space b /\ tc_pos a = tc_pos b).
Proof. exact conf_order. Qed.
Print Assumptions C69_order.
Theorem C69_order_total : forall a b c x y, consistent a b -> consistent b a -> consistent b c -> consistent a c ->
  (conf_cmp a b = Ok x -> conf_cmp b a = Ok (- x)) /\
  (conf_cmp a b = Ok x -> conf_cmp b c = Ok y -> x <= 0 -> y <= 0 -> exists z, conf_cmp a c = Ok z /\ z <= 0 /\ (x < 0 \/ y < 0 -> z < 0)).
Proof. exact conf_order_total. Qed.
Print Assumptions C69_order_total.
(** The hash depends on space and position, each step counting. *)
Theorem C69_hash : forall jen c, conf_hash jen c =
  fold_left hash_combine (map (fun x => jen (le_bytes 8 x)) (lenZ (tc_pos c) :: tc_pos c)) (jen (le_bytes 8 (tc_space c))).
Proof. exact conf_hash_fold. Qed.
Print Assumptions C69_hash.
(** Construction keeps the space and the position given, ... *)
Theorem C69_created : forall is_space id sp l, is_space sp = true ->
  create_conf is_space id sp (lenZ l) (Some l) = Ok (mkConf id sp l None) /\ create_conf is_space id sp 0 None = Ok (mkConf id sp [] None).
Proof. exact conf_created. Qed.
Print Assumptions C69_created.
Theorem C69_not_created : forall is_space id sp n l, (is_space sp = false -> create_conf is_space id sp n l = Err ERR_INVALID_OBJECT) /\
  (is_space sp = true -> 0 < n -> create_conf is_space id sp n None = Err ERR_INVALID_VALUE).
Proof. exact conf_not_created. Qed.
Print Assumptions C69_not_created.
(** ... and the position is read back into an array that is large enough; the rest of the
    array stays as it is. *)
Theorem C69_position : forall c old wanted, lenZ (tc_pos c) <= lenZ old ->
  conf_position c (lenZ old) (Some old) wanted = Ok (Some (tc_pos c ++ skipn (length (tc_pos c)) old), if wanted then Some (lenZ (tc_pos c)) else None).
Proof. exact conf_located. Qed.
Print Assumptions C69_position.
Theorem C69_no_position : forall c old wanted n,
  (lenZ old < lenZ (tc_pos c) -> conf_position c (lenZ old) (Some old) wanted = Err ERR_INVALID_VALUE) /\
  conf_position c 0 None true = Ok (None, Some (lenZ (tc_pos c))) /\ conf_position c 0 None false = Err ERR_INVALID_VALUE /\
  (0 < n -> conf_position c n None wanted = Err ERR_INVALID_VALUE).
Proof. exact conf_not_located. Qed.
Print Assumptions C69_no_position.
(** What the configuration designates in a static space, ... *)
Theorem C69_static : forall S h (sp : tspace S) c, reached h -> alive h (ts_tree S sp) -> forall size wanted, ts_kind S sp = KStatic S ->
  exists n b vs, conf_node S h sp c = (n, (h, sp)) /\ conf_check S h sp c = (Ok b, (h, sp)) /\ conf_values S h sp c (Some size) wanted = (vs, (h, sp)) /\
  ((exists d ds, designates h (ts_tree S sp) (steps c) d /\ values_along h (ts_tree S sp) (steps c) ds /\ n = Ok d /\ b = true /\
      vs = if (length (tc_pos c) <? size)%nat
           then Ok (Some (ds ++ repeat ccs_none (size - length ds)), if wanted then Some (lenZ (tc_pos c) + 1) else None)
           else Err ERR_INVALID_VALUE) \/
   (breaks h (ts_tree S sp) (steps c) /\ n = Err ERR_INVALID_TREE /\ (b = true <-> dangling h (ts_tree S sp) (steps c)) /\
      vs = if (length (tc_pos c) <? size)%nat then Err ERR_INVALID_TREE else Err ERR_INVALID_VALUE) \/
   (strays h (ts_tree S sp) (steps c) /\ n = Err ERR_OUT_OF_BOUNDS /\ b = false /\
      vs = if (length (tc_pos c) <? size)%nat then Err ERR_OUT_OF_BOUNDS else Err ERR_INVALID_VALUE)).
Proof. exact conf_static. Qed.
Print Assumptions C69_static.
(** ... and in a dynamic one, whose tree grows along the position. *)
Theorem C69_dynamic : forall S h (sp : tspace S) c, reached h -> alive h (ts_tree S sp) -> forall v st, behaves S v -> ts_kind S sp = KDynamic S v st ->
  exists r h' st', explores S v (h, st) (ts_tree S sp) (steps c) r (h', st') /\ reached h' /\ grown h h' /\
    conf_node S h sp c = (r, (h', with_state S sp v st')) /\
    match r with
    | Ok d => designates h' (ts_tree S sp) (steps c) d /\ conf_check S h sp c = (Ok true, (h', with_state S sp v st'))
    | Err e => (strays h' (ts_tree S sp) (steps c) /\ conf_check S h sp c = (Ok false, (h', with_state S sp v st'))) \/
               (~ strays h' (ts_tree S sp) (steps c) /\ conf_check S h sp c = (Err e, (h', with_state S sp v st')))
    | UB _ => False
    end /\
    (forall size wanted, (length (tc_pos c) < size)%nat ->
       match r with
       | Ok _ => exists ds, values_along h' (ts_tree S sp) (steps c) ds /\
           conf_values S h sp c (Some size) wanted =
             (Ok (Some (ds ++ repeat ccs_none (size - length ds)), if wanted then Some (lenZ (tc_pos c) + 1) else None), (h', with_state S sp v st'))
       | Err e => conf_values S h sp c (Some size) wanted = (Err e, (h', with_state S sp v st'))
       | UB _ => False
       end) /\
    (forall size wanted, (size <= length (tc_pos c))%nat -> conf_values S h sp c (Some size) wanted = (Err ERR_INVALID_VALUE, (h, sp))).
Proof. exact conf_dynamic. Qed.
Print Assumptions C69_dynamic.
Theorem C69_count : forall S h (sp : tspace S) c wanted, conf_values S h sp c None wanted =
  (if wanted then Ok (None, Some (lenZ (tc_pos c) + 1)) else Err ERR_INVALID_VALUE, (h, sp)).
Proof. exact conf_uncounted. Qed.
Print Assumptions C69_count.
(** A configuration can be written ... *)
Theorem C69_written : forall c, storable_conf c -> exists bs, wire_conf c bs /\ encodes (ser_conf c) bs /\ size_conf c = lenZ bs.
Proof. exact conf_written. Qed.
Print Assumptions C69_written.
(** ... and read where the handle of its space stands for a tree space. *)
Theorem C69_restored : forall c, storable_conf c -> forall mem, (tc_pos c <> [] -> mem (8 * lenZ (tc_pos c)) = true) ->
  forall is_space (m : hmap) id space bs (keep : bool) d,
  wire_conf c bs -> m (tc_space c) = Some d -> d_val d = VObject space -> is_space space = true -> (keep = true -> m (tc_id c) = None) ->
  exists m', (if keep then recorded m m' (tc_id c) id else m' = m) /\
    (forall tl n, lenZ bs <= n <= lenZ (bs ++ tl) -> n < 2 ^ 64 ->
       deser_conf mem is_space (Some m) keep id (mkR (bs ++ tl) n) = Ok ((mkConf id space (tc_pos c) (restored_ud (tc_ud c)), m'), mkR tl (n - lenZ bs))) /\
    (ud_bytes (tc_ud c) = [] -> forall p q tl, bs = p ++ q -> q <> [] -> lenZ p < 2 ^ 64 ->
       deser_conf mem is_space (Some m) keep id (mkR (p ++ tl) (lenZ p)) = Err ERR_NOT_ENOUGH_DATA).
Proof. exact conf_restored. Qed.
Print Assumptions C69_restored.
Theorem C69_refused : forall c, storable_conf c -> forall mem, (tc_pos c <> [] -> mem (8 * lenZ (tc_pos c)) = true) ->
  forall is_space (m : hmap) id space bs (keep : bool), wire_conf c bs -> forall tl n, lenZ bs <= n <= lenZ (bs ++ tl) -> n < 2 ^ 64 ->
  deser_conf mem is_space None keep id (mkR (bs ++ tl) n) = Err ERR_INVALID_OBJECT /\
  ((forall o, option_map d_val (m (tc_space c)) <> Some (VObject o)) -> deser_conf mem is_space (Some m) keep id (mkR (bs ++ tl) n) = Err ERR_INVALID_HANDLE) /\
  (option_map d_val (m (tc_space c)) = Some (VObject space) ->
     (is_space space = false -> deser_conf mem is_space (Some m) keep id (mkR (bs ++ tl) n) = Err ERR_INVALID_OBJECT) /\
     (is_space space = true -> m (tc_id c) <> None -> keep = true -> deser_conf mem is_space (Some m) keep id (mkR (bs ++ tl) n) = Err ERR_DUPLICATE_HANDLE)).
Proof. exact conf_refused. Qed.
Print Assumptions C69_refused.
Theorem C69_no_memory : forall c mem is_space m keep id bs, storable_conf c -> wire_conf c bs -> tc_pos c <> [] -> mem (8 * lenZ (tc_pos c)) = false ->
  forall tl n, lenZ bs <= n <= lenZ (bs ++ tl) -> n < 2 ^ 64 ->
  deser_conf mem is_space (Some m) keep id (mkR (bs ++ tl) n) = Err ERR_OUT_OF_MEMORY.
Proof. exact conf_no_memory. Qed.
Print Assumptions C69_no_memory.

(** Reading is not safe on other bytes: a number of steps of 2^61 makes a buffer of no bytes,
    beyond which the steps are written. *)
Theorem C69_steps_refuted : exists bs m is_space,
  Forall is_byte bs /\ deser_conf (fun _ => true) is_space (Some m) false 5 (mkR bs (lenZ bs)) = UB UBBounds.
Proof.
  exists [17; 1; 2; 128; 128; 128; 128; 128; 128; 128; 128; 32; 3; 3], (fun _ => None), (fun _ => true).
  split; [repeat constructor; unfold is_byte; lia|vm_compute; reflexivity].
Qed.
Print Assumptions C69_steps_refuted.

Definition conf_a : tconf := mkConf 7000 4096 [1; 0] None.
Definition conf_b : tconf := mkConf 7100 4096 [1; 0] (Some [9]).
Definition conf_c : tconf := mkConf 7200 4096 [1; 0; 300] None.
Example C69_ex : conf_cmp conf_a conf_b = Ok 0 /\ conf_cmp conf_c conf_a = Ok 1 /\ storable_conf conf_b /\
  conf_position conf_c 4 (Some [8; 8; 8; 8]) true = Ok (Some [1; 0; 300; 8], Some 3) /\
  fst (conf_values nat root_heap dyn_space conf_a (Some 4%nat) true) = Ok (Some [ccs_int 50; ccs_int 7; ccs_int 8; ccs_none], Some 3) /\
  fst (conf_check nat root_heap static_sp conf_a) = Ok false /\
  ser_conf conf_b (mkW [] (repeat 0 20) 20) = Ok (mkW [17; 188; 55; 128; 32; 2; 1; 0; 1; 9] (repeat 0 10) 10) /\
  match deser_conf (fun n => n =? 16) (fun s => s =? 800) (Some (fun k => if k =? 4096 then Some (ccs_object 800) else None)) true 77
          (mkR [17; 188; 55; 128; 32; 2; 1; 0; 1; 9] 10) with
  | Ok ((c, m), s) => c = mkConf 77 800 [1; 0] (Some [9]) /\ m 7100 = Some (ccs_object 77) /\ r_mem s = []
  | _ => False
  end.
Proof.
  split; [reflexivity|]. split; [reflexivity|]. split.
  { split; [unfold in_unsigned; cbn; lia|]. split; [unfold in_unsigned; cbn; lia|]. split; [repeat constructor; unfold in_unsigned; lia|]. split; reflexivity. }
  vm_compute. repeat split.
Qed.
