(** Properties of random generators. *)
From Coq Require Import ZArith List Bool Lia.
From Verif Require Import Base Datum CodecModel CodecSpec ParamSpec RngModel RngSpec RngProofs.
Import ListNotations.
Open Scope Z_scope.

(** C67: a generator can be written ... *)
Theorem C67_written : forall le types g ty, table types -> of_table types g ty -> storable_rng g ->
  exists bs, wire_rng le ty g bs /\ encodes (ser_rng le types g) bs /\ size_rng le types g = Ok (lenZ bs).
Proof. exact rng_written. Qed.
Print Assumptions C67_written.
(** ... and read where a type of the same name exists; its state is taken if the byte order
    and the size of the state agree. *)
Theorem C67_restored : forall le le' types types' g ty t' ty' bs, table types -> table types' -> of_table types g ty -> storable_rng g ->
  wire_rng le ty g bs -> nth_error types' t' = Some ty' -> t_name ty' = t_name ty ->
  (forall tl n, lenZ bs <= n <= lenZ (bs ++ tl) -> n < 2 ^ 64 ->
     deser_rng le' types' (mkR (bs ++ tl) n) =
       Ok (mkRng (g_id g) t' (restored_state le le' ty' (g_state g)) (read_ud (ud_bytes (g_ud g))), mkR tl (n - lenZ bs))) /\
  (ud_bytes (g_ud g) = [] -> forall p q tl, bs = p ++ q -> q <> [] -> lenZ p < 2 ^ 64 ->
     deser_rng le' types' (mkR (p ++ tl) (lenZ p)) = Err ERR_NOT_ENOUGH_DATA).
Proof. exact rng_restored. Qed.
Print Assumptions C67_restored.
(** On the host that wrote it, it goes on with the same numbers. *)
Theorem C67_continues : forall le types g ty bs tl n, table types -> of_table types g ty -> storable_rng g -> wire_rng le ty g bs ->
  lenZ bs <= n <= lenZ (bs ++ tl) -> n < 2 ^ 64 ->
  exists g', deser_rng le types (mkR (bs ++ tl) n) = Ok (g', mkR tl (n - lenZ bs)) /\
    g_type g' = g_type g /\ ud_bytes (g_ud g') = ud_bytes (g_ud g) /\
    forall draw k, draws draw k g' = draws draw k g.
Proof. exact rng_continues. Qed.
Print Assumptions C67_continues.
(** A type the host does not have is refused. *)
Theorem C67_unknown : forall le le' types types' g ty, table types -> of_table types g ty -> storable_rng g ->
  forall bs tl n, (forall ty', In ty' types' -> t_name ty' <> t_name ty) -> wire_rng le ty g bs ->
  lenZ bs <= n <= lenZ (bs ++ tl) -> n < 2 ^ 64 -> deser_rng le' types' (mkR (bs ++ tl) n) = Err ERR_INVALID_VALUE.
Proof. exact rng_unknown. Qed.
Print Assumptions C67_unknown.

(** Two types; a draw returns the first byte and increments it. *)
Definition gsl_table : list gtype := [mkGtype [109; 116] [7; 0; 0]; mkGtype [116; 97; 117; 115] [5; 5]].
Definition gsl_draw (t : nat) (st : list Z) : Z * list Z := match st with [] => (0, []) | x :: l => (x, (x + 1) mod 256 :: l) end.
Definition used_rng : rng := mkRng 4096 1 [9; 5] (Some [1; 2]).
Lemma gsl_table_ok : table gsl_table.
Proof.
  split; [repeat constructor; cbn; intuition discriminate|]. intros ty [<-|[<-|[]]]; (split; [split; [repeat constructor; cbv; split; congruence|cbv; reflexivity]|cbv; reflexivity]).
Qed.
Example C67_ex : of_table gsl_table used_rng (mkGtype [116; 97; 117; 115] [5; 5]) /\ storable_rng used_rng /\
  match ser_rng true gsl_table used_rng (mkW [] (repeat 0 40) 40) with
  | Ok s => w_done s = [0; 128; 32; 5; 116; 97; 117; 115; 0; 1; 2; 9; 5; 2; 1; 2] /\
      deser_rng true gsl_table (mkR (w_done s) (lenZ (w_done s))) = Ok (used_rng, mkR [] 0) /\
      draws gsl_draw 3 used_rng = [9; 10; 11] /\
      deser_rng true [] (mkR (w_done s) (lenZ (w_done s))) = Err ERR_INVALID_VALUE
  | _ => False
  end.
Proof. split; [split; reflexivity|]. split; [split; [split; cbv; congruence|reflexivity]|]. vm_compute. repeat split. Qed.
(** Restoring does not always go on with the same numbers: on a host of the other byte order
    the generator starts anew, and no error tells it. *)
Theorem C67_refuted : exists types g ty bs g', table types /\ of_table types g ty /\ storable_rng g /\ wire_rng true ty g bs /\
  deser_rng false types (mkR bs (lenZ bs)) = Ok (g', mkR [] 0) /\
  draws gsl_draw 3 g = [9; 10; 11] /\ draws gsl_draw 3 g' = [5; 6; 7].
Proof.
  exists gsl_table, used_rng, (mkGtype [116; 97; 117; 115] [5; 5]), [0; 128; 32; 5; 116; 97; 117; 115; 0; 1; 2; 9; 5; 2; 1; 2].
  eexists. split; [exact gsl_table_ok|]. split; [split; reflexivity|]. split; [split; [split; cbv; congruence|reflexivity]|].
  split; [|split; [vm_compute; reflexivity|split; reflexivity]].
  exists [128; 32], [5; 116; 97; 117; 115; 0], [2; 9; 5], [2; 1; 2]. split; [|split; [|split; [|split]]].
  - apply (leb_more 4096 [32]); [lia|]. apply (leb_last 32). lia.
  - exists [5]. split; [apply leb_last; cbv; split; congruence|reflexivity].
  - exists [2]. split; [apply leb_last; cbv; split; congruence|reflexivity].
  - exists [2]. split; [apply leb_last; cbv; split; congruence|reflexivity].
  - reflexivity.
Qed.
Print Assumptions C67_refuted.
