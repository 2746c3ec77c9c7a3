(** Properties C72 and C73: saving and restoring features spaces and objective spaces. *)
From Coq Require Import ZArith List Bool Lia Arith.
From Verif Require Import Base Datum CodecModel CodecSpec ParamModel ParamSpec ContextModel ContextSpec ContextProofs ExprModel ExprSpec RngModel TreeCodecSpec TreeConfModel RestoreSpec EvalModel EvalProps SpaceCodecModel SpaceCodecSpec SpaceCodecProofs.
Import ListNotations.
Open Scope Z_scope.

(** C72: a features space is saved in the announced number of bytes and restored with its
    name, user data and parameters, in order. *)
Theorem C72_features_space : forall jen le heap pud pid id ud c A,
  storable_space jen heap pud id ud c A -> addresses pid (length A) ->
  exists bs ps c', wire_features_space heap pud id ud (c_name c) A bs /\
    encodes (ser_features_space le heap pud id ud c) bs /\ size_features_space heap pud id ud c = Ok (lenZ bs) /\
    same_parameters heap pud pid A ps /\ same_space c ps c' /\
    forall mem (keep : bool) id' m, let read := deser_features_space jen le pid mem keep id' m in
      (refused_memory mem (8 * lenZ A) -> gives read (Err ERR_OUT_OF_MEMORY) bs True) /\
      (granted mem (8 * lenZ A) -> keep = true -> m id <> None -> gives read (Err ERR_DUPLICATE_HANDLE) bs True) /\
      (granted mem (8 * lenZ A) -> (keep = true -> m id = None) ->
         gives read (Ok (mkRS ps (mkSpace 9 c' []) (restored_ud ud), if keep then recording m id id' else m)) bs
           (ud_bytes ud = [] /\ no_data pud A)).
Proof. exact features_space_saved. Qed.
Print Assumptions C72_features_space.

(** C73: so is an objective space, with its objectives over the new parameters, in order; *)
Theorem C73_objective_space : forall jen le heap pud pid id ud c A,
  storable_space jen heap pud id ud c A -> addresses pid (length A) ->
  forall otype f, (forall i, (i < length A)%nat -> otype (pid i) = Some OBJ_PARAMETER) -> moves pid A f ->
  forall objs, Forall (storable_objective A) objs -> 8 * lenZ A + 12 * lenZ objs < 2 ^ 64 ->
  forall sp, sp_ctx sp = c -> sp_objectives sp = objs ->
  let room := 8 * lenZ A + 12 * lenZ objs in
  exists bs ps c', wire_objective_space heap pud id ud (c_name c) A objs bs /\
    encodes (ser_objective_space le heap pud id ud sp) bs /\ size_objective_space heap pud id ud sp = Ok (lenZ bs) /\
    same_parameters heap pud pid A ps /\ same_space c ps c' /\
    forall mem (keep : bool) id' m, let read := deser_objective_space jen le pid mem otype keep id' m in
      (refused_memory mem room -> gives read (Err ERR_OUT_OF_MEMORY) bs True) /\
      (granted mem room -> ~ own_handles A objs -> uses_freed read bs) /\
      (granted mem room -> own_handles A objs -> keep = true -> m id <> None -> gives read (Err ERR_DUPLICATE_HANDLE) bs True) /\
      (granted mem room -> own_handles A objs -> (keep = true -> m id = None) ->
         gives read (Ok (mkRS ps (mkSpace 6 c' (map (fun o => (restored f (fst o), snd o)) objs)) (restored_ud ud), if keep then recording m id id' else m)) bs
           ((ud_bytes ud = [] /\ no_data pud A) /\ Forall (fun o => no_user_data (fst o)) objs)).
Proof. exact objective_space_saved. Qed.
Print Assumptions C73_objective_space.
(** The bytes of another object are refused. *)
Theorem C73_other_type : forall jen le pid mem otype keep id m ty h lh, 0 <= ty < 128 -> in_unsigned 64 h -> leb128 h lh ->
  (ty <> 9 -> gives (deser_features_space jen le pid mem keep id m) (Err ERR_INVALID_TYPE) (ty :: lh) True) /\
  (ty <> 6 -> gives (deser_objective_space jen le pid mem otype keep id m) (Err ERR_INVALID_TYPE) (ty :: lh) True).
Proof. exact other_space. Qed.
Print Assumptions C73_other_type.

(** Examples: the spaces of EvalProps, with the parameters 10 and 20 *)
Definition sc_pud (h : Z) : option (list Z) := if h =? 20 then Some [5; 6] else None.
Definition sc_pid (i : nat) : Z := 100 + Z.of_nat i.
Definition sc_otype (h : Z) : option Z := if (100 <=? h) && (h <? 102) then Some OBJ_PARAMETER else None.
Definition sc_read (keep : bool) (m : hmap) (bs : list Z) := deser_objective_space ejen true sc_pid (fun _ => true) sc_otype keep 77 m (mkR bs (lenZ bs)).
Definition sc_var (o h : Z) : expr := EVar (mkObj o None) h.
Definition sc_space (l : list (expr * Z)) : space := mkSpace OT_OBJECTIVE_SPACE ectx l.
Definition sc_bytes (l : list (expr * Z)) : list Z :=
  match ser_objective_space true eh sc_pud 600 (Some [1]) (sc_space l) (mkW [] (repeat 0 300) 300) with Ok w => w_done w | _ => [] end.
Definition sc_two := [(sc_var 30 10, MINIMIZE); (EOp (mkObj 31 (Some [8])) XADD [sc_var 32 20; sc_var 33 10], MAXIMIZE)].
Lemma sc_storable : storable_space ejen eh sc_pud 600 (Some [1]) ectx [10; 20].
Proof.
  split; [split; lia|]. split; [cbn; lia|]. split; [split; [repeat constructor; lia|cbn; lia]|]. split; [|split; [|cbn; lia]].
  - apply good_describes. split; [reflexivity|]. split; [reflexivity|]. repeat constructor; vm_compute; intuition discriminate.
  - repeat constructor; try (cbn; lia); apply eh_created.
Qed.
Lemma sc_addresses : addresses sc_pid 2.
Proof. split; intros; unfold sc_pid in *; lia. Qed.
Example C72_ex : storable_space ejen eh sc_pud 600 (Some [1]) ectx [10; 20] /\ addresses sc_pid 2 /\
  let bs := match ser_features_space true eh sc_pud 600 (Some [1]) ectx (mkW [] (repeat 0 200) 200) with Ok w => w_done w | _ => [] end in
  let read mem m := deser_features_space ejen true sc_pid mem true 77 m (mkR bs (lenZ bs)) in
  (match read (fun n => n <=? 16) (fun _ => None) with
   | Ok ((r, m), s) => map po_id (rs_params r) = [100; 101] /\ map po_param (rs_params r) = [eh 10; eh 20] /\ map po_ud (rs_params r) = [None; Some [5; 6]] /\
       c_params (sp_ctx (rs_space r)) = [100; 101] /\ c_name (sp_ctx (rs_space r)) = [111] /\ rs_ud r = Some [1] /\ m 600 = Some (ccs_object 77) /\ r_mem s = []
   | _ => False end) /\
  read (fun n => n <? 16) (fun _ => None) = Err ERR_OUT_OF_MEMORY /\ read (fun _ => true) (fun _ => Some (ccs_object 3)) = Err ERR_DUPLICATE_HANDLE.
Proof. split; [exact sc_storable|]. split; [exact sc_addresses|]. vm_compute. repeat split. Qed.
Lemma sc_objectives : Forall (storable_objective [10; 20]) sc_two.
Proof.
  assert (V : forall o h, In h [10; 20] -> 0 < o < 100 -> 0 < h < 100 -> wf_expr (fun h => In h [10; 20]) (sc_var o h) /\ storable (sc_var o h)).
  { intros o h I O H. split; constructor; cbn; auto; try lia; split; lia. }
  constructor; [|constructor; [|constructor]]; unfold storable_objective; cbn [fst snd].
  - destruct (V 30 10 ltac:(now left) ltac:(lia) ltac:(lia)). auto.
  - destruct (V 32 20 ltac:(right; now left) ltac:(lia) ltac:(lia)). destruct (V 33 10 ltac:(now left) ltac:(lia) ltac:(lia)).
    split; [constructor; auto; cbn; repeat constructor; vm_compute; intuition discriminate|]. split; [|auto]. constructor; auto; cbn; try lia; split; lia.
Qed.
Example C73_ex : Forall (storable_objective [10; 20]) sc_two /\ own_handles [10; 20] sc_two /\
  (match sc_read false (fun _ => None) (sc_bytes sc_two) with
   | Ok ((r, m), s) => map po_id (rs_params r) = [100; 101] /\ r_mem s = [] /\
       sp_objectives (rs_space r) = [(sc_var 30 100, MINIMIZE); (EOp (mkObj 31 (Some [8])) XADD [sc_var 32 101; sc_var 33 100], MAXIMIZE)]
   | _ => False end) /\
  sc_read true (fun _ => Some (ccs_object 3)) (sc_bytes sc_two) = Err ERR_DUPLICATE_HANDLE.
Proof.
  split; [exact sc_objectives|]. split.
  { split; [repeat constructor; cbn; intuition discriminate|]. intros h [<-|[<-|[]]]; cbn; intuition discriminate. }
  vm_compute. repeat split.
Qed.
(** an expression that serves as two objectives is saved, but reading it back uses memory
    that was freed. *)
Theorem C73_twice_refuted : exists e, Forall (storable_objective [10; 20]) [(e, MINIMIZE); (e, MAXIMIZE)] /\
  add_objectives (sc_space []) [(e, MINIMIZE); (e, MAXIMIZE)] = (0, sc_space [(e, MINIMIZE); (e, MAXIMIZE)]) /\
  (exists w, ser_objective_space true eh sc_pud 600 (Some [1]) (sc_space [(e, MINIMIZE); (e, MAXIMIZE)]) (mkW [] (repeat 0 300) 300) = Ok w) /\
  sc_read false (fun _ => None) (sc_bytes [(e, MINIMIZE); (e, MAXIMIZE)]) = UB UBBounds.
Proof.
  exists (sc_var 30 10). split; [|split; [vm_compute; reflexivity|split; [eexists; vm_compute; reflexivity|vm_compute; reflexivity]]].
  pose proof sc_objectives as S. inversion S as [|? ? (W & T & _) _]; subst. cbn [fst] in *. constructor; [|constructor; [|constructor]]; (split; [exact W|split; [exact T|]]); [now left|now right].
Qed.
Print Assumptions C73_twice_refuted.
(** A count of parameters and a count of objectives whose sum wraps pass for an empty space
    that has parameters; reading then reports INVALID_VALUE. *)
Example C73_ex_counts : sc_read false (fun _ => None) ([6; 1] ++ [2; 111; 0] ++ [255; 255; 255; 255; 255; 255; 255; 255; 255; 1] ++ [1]) = Err ERR_INVALID_VALUE.
Proof. vm_compute. reflexivity. Qed.
