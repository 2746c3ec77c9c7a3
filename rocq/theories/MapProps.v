(** Properties C14, C15, C60, C61: maps. *)
From Coq Require Import ZArith List Bool.
From Verif Require Import Base Datum CodecModel CodecSpec CodecProofs CmpModel CmpSpec MapModel MapSpec MapProofs MapLemmas.
Import ListNotations.
Open Scope Z_scope.

(** C14 and the reference counts of C60, for every history of calls on a new map.
    [cs] are the codes returned, [D] the dictionary the history denotes, [pairs] the
    contents.  [jen] is the hash function. *)
Theorem C14_map_is_dictionary : forall jen rc ops, Forall (good_op rc) ops ->
  exists cs st D pairs, map_run jen (map_create rc) ops = Ok (cs, st) /\ dict_run dempty ops = (cs, D) /\
    (forall k, wf_datum k -> map_exist jen st k = match D (d_val k) with Some _ => true | None => false end) /\
    (forall k, wf_datum k -> d_val (map_get jen st k) = match D (d_val k) with Some v => v | None => VNone end) /\
    NoDup (map (fun e => d_val (fst e)) pairs) /\
    (forall k v, D k = Some v <-> In (k, v) (map (fun e => (d_val (fst e), d_val (snd e))) pairs)) /\
    (forall n, lenZ pairs <= n -> exists ks vs, map_get_pairs st (Some n) = Ok (Some (ks, vs), lenZ pairs) /\
        padded (map fst pairs) n ks /\ padded (map snd pairs) n vs /\
        map_get_values st (Some n) = Ok (Some vs, lenZ pairs)) /\
    (forall n, n < lenZ pairs -> map_get_pairs st (Some n) = Err ERR_INVALID_VALUE /\
                                 map_get_values st (Some n) = Err ERR_INVALID_VALUE) /\
    map_get_pairs st None = Ok (None, lenZ pairs) /\ map_get_values st None = Ok (None, lenZ pairs) /\
    (forall h, m_rc st h = rc h + refs h (map fst pairs ++ map snd pairs)).
Proof. exact history. Qed.
Print Assumptions C14_map_is_dictionary.
Definition ex_ops : list mop :=
  [MSet (ccs_int 1) (ccs_object 7); MSet (ccs_float 0) (ccs_int 2); MSet (ccs_int 1) (ccs_int 3);
   MDel (ccs_int 9); MSet (ccs_int 1) (ccs_object 7); MDel (ccs_float 0)].
Example C14_ex : Forall (good_op (fun h => if h =? 7 then 1 else 0)) ex_ops /\
  match map_run (fun l => lenZ l) (map_create (fun h => if h =? 7 then 1 else 0)) ex_ops with
  | Ok (cs, st) => cs = [0; 0; 0; ERR_INVALID_VALUE; 0; 0] /\ m_rc st 7 = 2 /\
      map_get_pairs st (Some 2) = Ok (Some ([ccs_int 1; ccs_none], [ccs_object 7; ccs_none]), 1)
  | _ => False
  end.
Proof.
  split; [|now vm_compute].
  repeat constructor; cbn; unfold in_signed, in_unsigned; cbn; try (split; easy); try (right; right; easy); easy.
Qed.

(** C15: what get_keys really returns, in every state *)
Theorem C15_get_keys_returns_values : forall st arr, map_get_keys st arr = map_get_values st arr.
Proof. exact get_keys_is_get_values. Qed.
Print Assumptions C15_get_keys_returns_values.
Theorem C15_get_keys_refuted : exists ops st, forall jen rc,
  map_run jen (map_create rc) ops = Ok ([0], st rc) /\ map_exist jen (st rc) (ccs_int 1) = true /\
  map_exist jen (st rc) (ccs_int 2) = false /\ map_get_keys (st rc) (Some 1) = Ok (Some [ccs_int 2], 1).
Proof.
  exists [MSet (ccs_int 1) (ccs_int 2)], (fun rc => mkMap [(ccs_int 1, ccs_int 2)] rc).
  intros jen rc. repeat split; try reflexivity;
    unfold map_exist, hash_find, key_matches; cbn [m_pairs find fst].
  - now rewrite Z.eqb_refl.
  - now rewrite andb_false_r.
Qed.
Print Assumptions C15_get_keys_refuted.

(** C60: after ccs_map_set succeeds with an object the map holds a reference on that
    object -- false when the entry already contained the bare handle.  (What always
    holds, exactly one reference per owned object listed, is in C14.) *)
Theorem C60_set_object_retains_refuted : exists ops, forall jen, exists st,
  map_run jen (map_create (fun h => if h =? 7 then 1 else 0)) ops = Ok ([0; 0], st) /\
  last ops MClear = MSet (ccs_int 1) (ccs_object 7) /\ m_rc st 7 = 1.
Proof.
  exists [MSet (ccs_int 1) (mkDatum (VObject 7) FLAG_ID); MSet (ccs_int 1) (ccs_object 7)]. intro jen.
  eexists. split; [|split; [reflexivity|]].
  - cbn [map_run map_step]. unfold map_set, map_create, hash_find; cbn [m_pairs find bind check_datum owned app].
    cbn [ccs_int d_val bind m_pairs m_rc]. unfold check_datum, owned; cbn -[map_run].
    unfold key_matches; cbn -[map_run hash_datum]. rewrite Z.eqb_refl. reflexivity.
  - reflexivity.
Qed.
Print Assumptions C60_set_object_retains_refuted.
Theorem C60_one_reference_per_owned_entry : forall jen rc ops, Forall (good_op rc) ops ->
  exists cs st pairs, map_run jen (map_create rc) ops = Ok (cs, st) /\
    (exists vs, map_get_pairs st (Some (lenZ pairs)) = Ok (Some vs, lenZ pairs) /\ vs = (map fst pairs, map snd pairs)) /\
    (forall h, m_rc st h = rc h + refs h (map fst pairs ++ map snd pairs)) /\
    exists st', map_clear st = Ok (0, st') /\ forall h, m_rc st' h = rc h.
Proof. exact references. Qed.
Print Assumptions C60_one_reference_per_owned_entry.

(** C61: the contents survive serialisation, in order; objects come back as bare
    handles on which no reference is held. *)
Theorem C61_map_roundtrip : forall jen le rc l, Forall storable l ->
  NoDup (map (fun e => d_val (fst e)) l) -> lenZ l < 2 ^ 64 ->
  exists bs l', wire_map l bs /\ encodes (ser_map_data le l) bs /\ size_map_data l = Ok (lenZ bs) /\
    map (fun e => (d_val (fst e), d_val (snd e))) l' = map (fun e => (d_val (fst e), d_val (snd e))) l /\
    decodes (deser_map jen le rc) (0, mkMap l' rc) bs.
Proof. exact map_roundtrip. Qed.
Print Assumptions C61_map_roundtrip.
Example C61_ex : match deser_map (fun _ => 0) true (fun _ => 0) (mkR [2; 1; 2; 6; 7; 4; 2; 97; 0; 0] 10) with
  | Ok ((0, st), mkR [] 0) =>
      m_pairs st = [(ccs_int 1, mkDatum (VObject 7) FLAG_ID); (ccs_string (Some [97]), ccs_none)]
  | _ => False end.
Proof. now vm_compute. Qed.
