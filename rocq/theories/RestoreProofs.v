(** Proofs about the restoration of configurations, features and evaluations. *)
From Coq Require Import ZArith List Bool Lia Arith.
From Verif Require Import Base Datum CodecModel CodecSpec CodecProofs CmpModel CmpSpec ParamModel ParamSpec ParamCodec ContextModel ContextSpec ContextProofs EvalModel ExprModel ExprCodec TreeModel TreeCodecSpec TreeCodec RngModel RngProofs TreeSpaceModel TreeSpaceSpec TreeSpaceCodec TreeConfModel TreeConfSpec TreeConfProofs RestoreModel RestoreSpec.
Import ListNotations.
Open Scope Z_scope.

(** ** Readers that fail after having read [bs] *)
Definition rej {A} (L : nat) (de : rstate -> res (A * rstate)) (e : Z) (bs : list Z) : Prop :=
  (length bs <= L)%nat -> forall tl n, lenZ bs <= n <= lenZ (bs ++ tl) -> n < 2 ^ 64 -> de (mkR (bs ++ tl) n) = Err e.
Lemma rej_now {A} L (de : rstate -> res (A * rstate)) e bs : (forall s, de s = Err e) -> rej L de e bs.
Proof. intros H _ tl n _ _. apply H. Qed.
Lemma rej_bind {A B} u L (f : rstate -> res (A * rstate)) (k : A * rstate -> res (B * rstate)) a e bs cs :
  dec u L f a bs -> ((length bs <= L)%nat -> rej (L - length bs) (fun s => k (a, s)) e cs) -> rej L (fun s => bind (f s) k) e (bs ++ cs).
Proof.
  intros [F _] K N tl n R R'. rewrite app_length in N. rewrite lenZ_app in R. rewrite <- app_assoc in *. pose proof (lenZ_nonneg cs). pose proof (lenZ_nonneg bs).
  pose proof (lenZ_nonneg tl). rewrite !lenZ_app in R.
  rewrite F; [|lia|rewrite !lenZ_app; lia|exact R']. cbn [bind]. apply (K ltac:(lia)); [lia| |lia]. rewrite lenZ_app. lia.
Qed.
Lemma rej_head {A B} L (f : rstate -> res (A * rstate)) (k : A * rstate -> res (B * rstate)) e bs cs :
  rej L f e bs -> rej L (fun s => bind (f s) k) e (bs ++ cs).
Proof.
  intros F N tl n R R'. rewrite app_length in N. pose proof (lenZ_nonneg cs). pose proof (lenZ_nonneg bs). pose proof (lenZ_nonneg tl).
  rewrite <- app_assoc in *. rewrite F; [reflexivity|lia| |exact R']. rewrite !lenZ_app in *. lia.
Qed.
Ltac rb := eapply rej_bind; [|intros _; cbv beta iota].

(** ** Values *)
Lemma settled_clean d : settled d = mkDatum (d_val d) (if match d_val d with VObject _ => true | _ => false end then FLAG_ID else FLAG_DEFAULT).
Proof. unfold settled. destruct (d_val d); reflexivity. Qed.
Lemma back_stored heap A i d r w : stored heap A i (backd d) r w ->
  (forall s, d_val d <> VString s) -> r = 0 /\ w = settled d.
Proof.
  intros S N. assert (T : Z.testbit (d_flags (backd d)) 0 = false).
  { unfold backd, wire_flags. cbn [d_flags d_val]. destruct (d_val d) as [| | | |s| | |]; try reflexivity. now destruct (N s). }
  inversion S; try congruence. split; [reflexivity|]. unfold settled, backd, wire_flags. destruct (d_val d) as [| | | |s| | |]; try reflexivity. now destruct (N s).
Qed.
Lemma string_not_number p s : p_type p = PNUMERICAL -> ~ domain p (VString s).
Proof.
  intros T D. unfold domain in D. rewrite T in D. cbn in D. destruct D as (x & l & k & u & E & _). unfold number in E. destruct (CodecModel.i_type (p_interval p) =? CodecModel.NUM_FLOAT) in E; destruct (_ =? _) in E; discriminate.
Qed.
Lemma back_string heap A i d s r w : stored heap A i (backd d) r w -> d_val d = VString s ->
  (r = 0 /\ w = settled d /\ exists h, nth_error A i = Some h /\ domain (heap h) (VString s)) \/
  (r = ERR_INVALID_VALUE /\ exists h, nth_error A i = Some h /\ ~ domain (heap h) (VString s)) \/ (nth_error A i = None).
Proof.
  intros S E. assert (T : Z.testbit (d_flags (backd d)) 0 = true) by (unfold backd, wire_flags; cbn [d_flags]; now rewrite E).
  assert (V : d_val (backd d) = VString s) by exact E.
  inversion S as [T'|h T' N D|h w' T' N D|w' T' N]; subst; try congruence.
  - left. split; [reflexivity|]. rewrite V in D. split; [|eauto].
    destruct (Z.eqb_spec (p_type (heap h)) PNUMERICAL) as [P|_]; [now destruct (string_not_number _ _ P D)|]. unfold clean, settled. rewrite V, E. reflexivity.
  - right; left. split; [reflexivity|]. rewrite V in D. eauto.
  - right; right. exact N.
Qed.
Lemma wf_back l : Forall (fun d => wf_value (d_val d) /\ serialisable (d_val d)) l -> Forall wf_datum (map backd l).
Proof. intro F. apply Forall_map. eapply Forall_impl; [|exact F]. intros d [W _]. exact W. Qed.
Section Values.
  Variables (heap : Z -> param) (jen : list Z -> Z).
  Lemma settles_exists A vals c : storable_values vals -> good heap c A -> (forall h, In h A -> created jen (heap h)) ->
    settles heap A vals (create_binding heap jen c (match vals with [] => None | l => Some (map backd l) end)).
  Proof.
    intros [F LN] G OK. destruct vals as [|d0 vals0] eqn:EV; [rewrite (create_none heap jen c A G); now constructor|].
    pose proof (create_spec heap jen c A G OK (map backd vals) ltac:(subst; now apply wf_back)) as CS. rewrite <- EV in *.
    assert (NE : vals <> []) by (subst; discriminate). clear EV.
    remember (create_binding heap jen c (Some (map backd vals))) as R eqn:ER.
    inversion CS as [NL EQ|vs NL H EQ|k v r w NL NV SV NR H EQ]; clear CS.
    - apply other_number; [exact NE|]. rewrite map_length in NL. congruence.
    - assert (LL : length vals = length A).
      { assert (EQ' : Ok vs = create_binding heap jen c (Some (map backd vals))) by congruence. unfold create_binding in EQ'. destruct G as (P & _). rewrite P in EQ'. rewrite map_length in EQ'.
        destruct (Nat.eqb_spec (length A) (length vals)); [congruence|discriminate]. }
      assert (ALL : forall i d, nth_error vals i = Some d -> nth_error vs i = Some (settled d) /\ forall s, d_val d = VString s -> exists h, nth_error A i = Some h /\ domain (heap h) (VString s)).
      { intros i d N. destruct (H i (backd d)) as (w & ST & NW); [now apply map_nth_error|].
        assert (DS : (exists s, d_val d = VString s) \/ forall s, d_val d <> VString s) by (destruct (d_val d) eqn:?; [right; discriminate|right; discriminate|right; discriminate|right; discriminate|left; eauto|right; discriminate|right; discriminate|right; discriminate]).
        destruct DS as [[s DS]|DS].
        - destruct (back_string _ _ _ _ _ _ _ ST DS) as [(_ & -> & X)|[(Q & _)|X]]; [|discriminate|].
          + split; [exact NW|]. intros s' DS'. rewrite DS in DS'. injection DS' as <-. exact X.
          + exfalso. apply nth_error_None in X. assert (i < length vals)%nat by (apply nth_error_Some; congruence). lia.
        - destruct (back_stored _ _ _ _ _ _ ST DS) as [_ ->]. split; [exact NW|]. intros s' DS'. now destruct (DS s'). }
      replace vs with (map settled vals).
      + apply all_fit; [exact NE|exact LL|]. intros i d s N. now apply (ALL i d N).
      + apply nth_ext with (d := ccs_none) (d' := ccs_none); [rewrite map_length; congruence|].
        intros i Hi. rewrite map_length in Hi. destruct (nth_error vals i) as [d|] eqn:N; [|apply nth_error_None in N; lia].
        rewrite (nth_error_nth (map settled vals) i (x := settled d)) by (now apply map_nth_error).
        rewrite (nth_error_nth vs i (x := settled d)); [reflexivity|]. now apply (ALL i d N).
    - rewrite map_length in NL. destruct (nth_error vals k) as [d|] eqn:N; [|apply nth_error_None in N; assert (k < length (map backd vals))%nat by (apply nth_error_Some; congruence); rewrite map_length in *; lia].
      rewrite (map_nth_error backd k vals N) in NV. injection NV as <-.
      destruct (d_val d) as [| | | |s| | |] eqn:E; try (destruct (back_stored _ _ _ _ _ _ SV) as [X _]; [rewrite E; discriminate|contradiction]).
      destruct (back_string _ _ _ _ _ _ _ SV E) as [(X & _)|[(-> & h & NA & ND)|NA]]; [contradiction| |].
      + apply misfit; [exact NE|congruence|]. intro FT. destruct (FT k d s N E) as (h' & NA' & D). rewrite NA in NA'. injection NA' as <-. contradiction.
      + exfalso. apply nth_error_None in NA. assert (k < length vals)%nat by (apply nth_error_Some; congruence). lia.
  Qed.
End Values.

(** ** Binding data *)
Lemma binding_wire ctx vals : 0 <= ctx -> storable_values vals -> exists bs, wire_binding ctx vals bs.
Proof.
  intros C [F _]. destruct (leb128_exists ctx C) as [lc Lc]. destruct (leb128_exists (lenZ vals) (lenZ_nonneg vals)) as [ln Ln].
  destruct (wire_data_exists vals F) as [vb Vb]. exists (lc ++ ln ++ vb), lc, ln, vb. auto.
Qed.
Lemma binding_encodes le ctx vals bs : in_unsigned 64 ctx -> storable_values vals -> wire_binding ctx vals bs -> encodes (ser_binding le ctx vals) bs.
Proof.
  intros C [F LN] (lc & ln & vb & Lc & Ln & Vb & ->). assert (LL : 0 <= lenZ vals < 2 ^ 64) by (pose proof (lenZ_nonneg vals); lia). unfold ser_binding.
  apply encodes_seq; [apply ser_uint_encodes; auto using okw64|]. apply encodes_seq; [apply ser_uint_encodes; auto using okw64|]. now apply ser_data_encodes.
Qed.
Lemma binding_size ctx vals bs : in_unsigned 64 ctx -> storable_values vals -> wire_binding ctx vals bs -> size_binding ctx vals = Ok (lenZ bs).
Proof.
  intros C [F LN] (lc & ln & vb & Lc & Ln & Vb & ->). assert (LL : 0 <= lenZ vals < 2 ^ 64) by (pose proof (lenZ_nonneg vals); lia). unfold size_binding.
  rewrite (size_data_ok vals vb F Vb). cbn [bind]. unfold size_object, size_size. rewrite (size_uint_ok 64 ctx lc), (size_uint_ok 64 _ ln) by auto using okw64. f_equal. rewrite !lenZ_app. lia.
Qed.
Section Dec.
  Variable mem : Z -> bool.
  Notation granted vals := (granted mem (16 * lenZ vals)).
  Definition array (vals : list datum) : option (list datum) := match vals with [] => None | l => Some (map backd l) end.
  Lemma binding_dec le u L ctx vals bs : in_unsigned 64 ctx -> storable_values vals -> granted vals -> wire_binding ctx vals bs ->
    dec u L (deser_binding mem le) (ctx, array vals) bs.
  Proof.
    intros C [F LN] M (lc & ln & vb & Lc & Ln & Vb & ->). assert (LL : 0 <= lenZ vals < 2 ^ 64) by (pose proof (lenZ_nonneg vals); lia). unfold deser_binding.
    db; [apply decodes_dec, deser_uint_decodes; [exact okw64|exact C|exact Lc]|].
    db; [apply decodes_dec, deser_uint_decodes; [exact okw64|exact LL|exact Ln]|].
    unfold array. destruct (Z.eqb_spec (lenZ vals) 0) as [E|N].
    - apply lenZ_0 in E. subst vals. inversion Vb; subst. apply dec_ret.
    - assert (NE : vals <> []) by (intro E; subst; now apply N). rewrite M by lia. cbn [negb].
      replace (match vals with [] => None | l => Some (map backd l) end) with (Some (map backd vals)) by (destruct vals; [easy|reflexivity]).
      assert (TN : Z.to_nat (lenZ vals) = length vals) by (unfold lenZ; lia). rewrite TN. rewrite <- (app_nil_r vb).
      db; [apply decodes_dec, (deser_data_decodes le vals vb F Vb)|]. apply dec_ret.
  Qed.
  Lemma binding_rej le L ctx vals bs : in_unsigned 64 ctx -> storable_values vals -> vals <> [] -> mem (16 * lenZ vals) = false -> wire_binding ctx vals bs ->
    rej L (deser_binding mem le) ERR_OUT_OF_MEMORY bs.
  Proof.
    intros C [F LN] NE M (lc & ln & vb & Lc & Ln & Vb & ->). assert (LL : 0 <= lenZ vals < 2 ^ 64) by (pose proof (lenZ_nonneg vals); lia). unfold deser_binding.
    rb; [apply (decodes_dec false), deser_uint_decodes; [exact okw64|exact C|exact Lc]|].
    rb; [apply (decodes_dec false), deser_uint_decodes; [exact okw64|exact LL|exact Ln]|].
    destruct (Z.eqb_spec (lenZ vals) 0) as [E|N]; [now apply lenZ_0 in E|]. rewrite M. now apply rej_now.
  Qed.
  Variables (heap : Z -> param) (jen : list Z -> Z) (space_at : Z -> option (Z * context)).
  Notation becomes := (becomes heap jen space_at).
  Lemma found_becomes m old sty space A : becomes m old sty space A -> found m old = Ok space.
  Proof. intros [M _]. unfold found, hget. destruct (m old) as [d|]; [|discriminate]. cbn in M. injection M as ->. reflexivity. Qed.
  Lemma create_settles m old sty space A vals : becomes m old sty space A -> storable_values vals ->
    settles heap A vals (create_in heap jen space_at sty space (array vals)).
  Proof.
    intros (_ & c & k & nm & l & rs & SA & CR & RUN & CP) SV. unfold create_in. rewrite SA, Z.eqb_refl. cbn [negb refute bind].
    destruct (run_spec heap k l _ _ (good_new heap nm)) as (cs & c' & A' & R & SR & G). rewrite RUN in R. injection R as <- <-.
    assert (A' = A) by (destruct G as (P & _); congruence). subst A'. unfold array. apply (settles_exists heap jen A vals c SV G).
    intros h Hh. destruct (space_run_in _ _ _ _ _ _ SR h Hh) as [[]|X]. now apply CR.
  Qed.
  Lemma settles_det A vals r r' : settles heap A vals r -> settles heap A vals r' -> r = r'.
  Proof. intros X Y. inversion X; inversion Y; subst; auto; try contradiction; try congruence. Qed.
  Lemma created_in m old sty space A vals r : becomes m old sty space A -> storable_values vals -> settles heap A vals r ->
    create_in heap jen space_at sty space (array vals) = r.
  Proof. intros B SV S. eapply settles_det; [|exact S]. eapply create_settles; eauto. Qed.

  (** ** Configurations and features *)
  Section Bobj.
    Variables (le : bool) (ty sty : Z) (b : bobj).
    Hypothesis TY : 0 <= ty < 128.
    Hypothesis SB : storable_bobj b.
    Lemma bobj_written : exists bs, wire_bobj ty b bs /\ encodes (ser_bobj le ty b) bs /\ size_bobj ty b = Ok (lenZ bs).
    Proof.
      clear mem heap jen space_at sty.
      destruct SB as (I & C & V & UD). destruct (leb128_exists (bo_id b)) as [lh Lh]; [apply I|]. destruct (binding_wire (bo_ctx b) (bo_vals b)) as [db Db]; [apply C|exact V|].
      destruct (wire_blob_exists (ud_bytes (bo_ud b))) as [ub Ub]. exists ((ty :: lh) ++ db ++ ub). split; [exists lh, db, ub; auto|]. unfold ser_bobj, size_bobj. split.
      - apply encodes_seq; [now apply ser_object_internal_encodes|]. apply encodes_seq; [now apply binding_encodes|now apply ser_user_data_encodes].
      - rewrite (binding_size _ _ db C V Db). cbn [bind]. rewrite (size_object_internal_ok ty _ lh), (size_user_data_ok _ ub) by auto. f_equal. rewrite !lenZ_app. lia.
    Qed.
    Variables (m : hmap) (id : Z) (keep : bool) (bs : list Z).
    Hypothesis W : wire_bobj ty b bs.
    Notation read := (deser_bobj mem heap jen space_at le ty sty (Some m) keep id).
    Section In.
      Variables (space : Z) (A : list Z).
      Hypothesis M : granted (bo_vals b).
      Hypothesis B : becomes m (bo_ctx b) sty space A.
      Lemma bobj_dec u L vs m' : settles heap A (bo_vals b) (Ok vs) -> (if keep then m (bo_id b) = None /\ m' = hset m (bo_id b) (ccs_object id) else m' = m) ->
        (u = true -> ud_bytes (bo_ud b) = []) -> dec u L read (mkB id space vs (restored_ud (bo_ud b)), m') bs.
      Proof.
        intros ST KP GU. destruct W as (lh & db & ub & Lh & Db & Ub & ->). pose proof SB as (I & C & V & UD). unfold deser_bobj.
        db; [apply decodes_dec, (deser_object_internal_decodes ty (bo_id b) lh TY I Lh)|]. cbn [fst snd]. rewrite Z.eqb_refl. cbn [negb refute bind].
        db; [apply (binding_dec le u _ _ _ _ C V M Db)|]. cbn [fst snd]. rewrite (found_becomes _ _ _ _ _ B). cbn [bind].
        rewrite (created_in _ _ _ _ _ _ _ B V ST). cbn [bind].
        assert (KE : (if keep then handle_check_add m (bo_id b) id else Ok m) = Ok m').
        { destruct keep; [|now subst]. destruct KP as [K1 ->]. unfold handle_check_add. now rewrite K1. }
        rewrite KE. cbn [bind]. rewrite restored_ud_eq. rewrite <- (app_nil_r ub).
        db; [apply (user_data_dec u _ (ud_bytes (bo_ud b))); [exact UD|exact Ub|exact GU]|]. apply dec_ret.
      Qed.
      Lemma bobj_misfit L e : settles heap A (bo_vals b) (Err e) -> rej L read e bs.
      Proof.
        intro ST. destruct W as (lh & db & ub & Lh & Db & Ub & ->). pose proof SB as (I & C & V & UD). unfold deser_bobj.
        rb; [apply (decodes_dec false), (deser_object_internal_decodes ty (bo_id b) lh TY I Lh)|]. cbn [fst snd]. rewrite Z.eqb_refl. cbn [negb refute bind].
        rb; [apply (binding_dec le false _ _ _ _ C V M Db)|]. cbn [fst snd]. rewrite (found_becomes _ _ _ _ _ B). cbn [bind].
        rewrite (created_in _ _ _ _ _ _ _ B V ST). now apply rej_now.
      Qed.
      Lemma bobj_again L vs : settles heap A (bo_vals b) (Ok vs) -> keep = true -> m (bo_id b) <> None -> rej L read ERR_DUPLICATE_HANDLE bs.
      Proof.
        intros ST K MK. destruct W as (lh & db & ub & Lh & Db & Ub & ->). pose proof SB as (I & C & V & UD). unfold deser_bobj.
        rb; [apply (decodes_dec false), (deser_object_internal_decodes ty (bo_id b) lh TY I Lh)|]. cbn [fst snd]. rewrite Z.eqb_refl. cbn [negb refute bind].
        rb; [apply (binding_dec le false _ _ _ _ C V M Db)|]. cbn [fst snd]. rewrite (found_becomes _ _ _ _ _ B). cbn [bind].
        rewrite (created_in _ _ _ _ _ _ _ B V ST). cbn [bind]. rewrite K. unfold handle_check_add. destruct (m (bo_id b)); [|congruence]. now apply rej_now.
      Qed.
    End In.
    Lemma bobj_lost L : granted (bo_vals b) -> (forall o, option_map d_val (m (bo_ctx b)) <> Some (VObject o)) -> rej L read ERR_INVALID_HANDLE bs.
    Proof.
      intros M NO. destruct W as (lh & db & ub & Lh & Db & Ub & ->). pose proof SB as (I & C & V & UD). unfold deser_bobj.
      rb; [apply (decodes_dec false), (deser_object_internal_decodes ty (bo_id b) lh TY I Lh)|]. cbn [fst snd]. rewrite Z.eqb_refl. cbn [negb refute bind].
      rb; [apply (binding_dec le false _ _ _ _ C V M Db)|]. cbn [fst snd]. unfold found, hget.
      destruct (m (bo_ctx b)) as [d|]; cbn [option_map] in NO; [|now apply rej_now]. destruct (d_val d) eqn:E; try (now apply rej_now). exfalso. now apply (NO h).
    Qed.
    Lemma bobj_wrong L space : granted (bo_vals b) -> option_map d_val (m (bo_ctx b)) = Some (VObject space) -> (forall c, space_at space <> Some (sty, c)) ->
      rej L read ERR_INVALID_OBJECT bs.
    Proof.
      intros M MS NS. destruct W as (lh & db & ub & Lh & Db & Ub & ->). pose proof SB as (I & C & V & UD). unfold deser_bobj.
      rb; [apply (decodes_dec false), (deser_object_internal_decodes ty (bo_id b) lh TY I Lh)|]. cbn [fst snd]. rewrite Z.eqb_refl. cbn [negb refute bind].
      rb; [apply (binding_dec le false _ _ _ _ C V M Db)|]. cbn [fst snd]. unfold found, hget.
      destruct (m (bo_ctx b)) as [d|]; cbn [option_map] in MS; [|discriminate]. injection MS as ->. cbn [bind]. unfold create_in.
      destruct (space_at space) as [[t c]|] eqn:SA; [|now apply rej_now]. destruct (Z.eqb_spec t sty) as [->|_]; [now destruct (NS c)|now apply rej_now].
    Qed.
    Lemma bobj_oom L : bo_vals b <> [] -> mem (16 * lenZ (bo_vals b)) = false -> rej L read ERR_OUT_OF_MEMORY bs.
    Proof.
      intros NE M. destruct W as (lh & db & ub & Lh & Db & Ub & ->). pose proof SB as (I & C & V & UD). unfold deser_bobj.
      rb; [apply (decodes_dec false), (deser_object_internal_decodes ty (bo_id b) lh TY I Lh)|]. cbn [fst snd]. rewrite Z.eqb_refl. cbn [negb refute bind].
      apply rej_head. now apply (binding_rej le _ (bo_ctx b) (bo_vals b)).
    Qed.
    Lemma bobj_other L ty' : 0 <= ty' -> ty <> ty' -> rej L (deser_bobj mem heap jen space_at le ty' sty (Some m) keep id) ERR_INVALID_TYPE bs.
    Proof.
      intros T N. destruct W as (lh & db & ub & Lh & Db & Ub & ->). pose proof SB as (I & C & V & UD). unfold deser_bobj.
      rb; [apply (decodes_dec false), (deser_object_internal_decodes ty (bo_id b) lh TY I Lh)|]. cbn [fst snd]. destruct (Z.eqb_spec ty ty'); [contradiction|]. now apply rej_now.
    Qed.
  End Bobj.

  (** ** Evaluations *)
  Section Eval.
    Variables (E : Type) (le : bool) (ty : Z) (e : eobj E) (storable_about : E -> Prop) (wire_about : E -> list Z -> Prop).
    Variables (ser_about : E -> wstate -> res wstate) (size_about : E -> res Z).
    Hypothesis TY : 0 <= ty < 128.
    Hypothesis SE : storable_eval storable_about e.
    Lemma eval_written : (exists bs, wire_about (eo_about e) bs /\ encodes (ser_about (eo_about e)) bs /\ size_about (eo_about e) = Ok (lenZ bs)) ->
      exists bs, wire_eval ty wire_about e bs /\ encodes (ser_eval le ty ser_about e) bs /\ size_eval ty size_about e = Ok (lenZ bs).
    Proof.
      clear mem heap jen space_at.
      intros (ab & Ab & AE & AS). destruct SE as (I & C & V & SA & RS & UD). destruct (leb128_exists (eo_id e)) as [lh Lh]; [apply I|].
      destruct (binding_wire (eo_ctx e) (eo_vals e)) as [db Db]; [apply C|exact V|].
      destruct (leb128_exists (zigzag (eo_result e))) as [rb Rb]; [apply zigzag_nonneg|].
      destruct (wire_blob_exists (ud_bytes (eo_ud e))) as [ub Ub]. exists ((ty :: lh) ++ db ++ ab ++ rb ++ ub).
      split; [exists lh, db, ab, rb, ub; repeat (split; [assumption|]); reflexivity|]. unfold ser_eval, size_eval. split.
      - apply encodes_seq; [now apply ser_object_internal_encodes|]. apply encodes_seq; [now apply binding_encodes|]. apply encodes_seq; [exact AE|].
        apply encodes_seq; [apply ser_sint_encodes; auto using okw32|now apply ser_user_data_encodes].
      - rewrite (binding_size _ _ db C V Db). cbn [bind]. rewrite AS. cbn [bind]. unfold size_eval_result.
        rewrite (size_object_internal_ok ty _ lh), (size_sint_ok 32 _ rb), (size_user_data_ok _ ub) by auto using okw32. f_equal. rewrite !lenZ_app. lia.
    Qed.
    Variables (about : hmap -> rstate -> res (E * rstate)) (m : hmap) (id : Z) (keep : bool) (bs : list Z).
    Hypothesis W : wire_eval ty wire_about e bs.
    Hypothesis M : granted (eo_vals e).
    Notation read := (deser_eval mem heap jen space_at le ty about (Some m) keep id).
    (** what it is about is refused *)
    Lemma eval_about L err : (forall L ab, wire_about (eo_about e) ab -> rej L (about m) err ab) -> rej L read err bs.
    Proof.
      intro RA. destruct W as (lh & db & ab & rb & ub & Lh & Db & Ab & Rb & Ub & ->). pose proof SE as (I & C & V & SA & RS & UD). unfold deser_eval.
      rb; [apply (decodes_dec false), (deser_object_internal_decodes ty (eo_id e) lh TY I Lh)|]. cbn [fst snd]. rewrite Z.eqb_refl. cbn [negb refute bind].
      rb; [apply (binding_dec le false _ _ _ _ C V M Db)|]. apply rej_head. now apply RA.
    Qed.
    Section In.
      Variables (space : Z) (A : list Z) (a' : E).
      Hypothesis B : becomes m (eo_ctx e) OT_OBJECTIVE_SPACE space A.
      Lemma eval_dec u L vs m' : (forall L ab, wire_about (eo_about e) ab -> dec u L (about m) a' ab) -> settles heap A (eo_vals e) (Ok vs) ->
        (if keep then m (eo_id e) = None /\ m' = hset m (eo_id e) (ccs_object id) else m' = m) ->
        (u = true -> ud_bytes (eo_ud e) = []) -> dec u L read (mkE id space vs a' (eo_result e) (restored_ud (eo_ud e)), m') bs.
      Proof.
        intros DA ST KP GU. destruct W as (lh & db & ab & rb & ub & Lh & Db & Ab & Rb & Ub & ->). pose proof SE as (I & C & V & SA & RS & UD). unfold deser_eval.
        db; [apply decodes_dec, (deser_object_internal_decodes ty (eo_id e) lh TY I Lh)|]. cbn [fst snd]. rewrite Z.eqb_refl. cbn [negb refute bind].
        db; [apply (binding_dec le u _ _ _ _ C V M Db)|]. db; [apply (DA _ ab Ab)|].
        db; [apply decodes_dec, (deser_sint_decodes 32); [exact okw32|exact RS|exact Rb]|]. cbn [fst snd].
        rewrite (found_becomes _ _ _ _ _ B). cbn [bind]. rewrite (created_in _ _ _ _ _ _ _ B V ST). cbn [bind].
        assert (KE : (if keep then handle_check_add m (eo_id e) id else Ok m) = Ok m').
        { destruct keep; [|now subst]. destruct KP as [K1 ->]. unfold handle_check_add. now rewrite K1. }
        rewrite KE. cbn [bind]. rewrite restored_ud_eq. rewrite <- (app_nil_r ub).
        db; [apply (user_data_dec u _ (ud_bytes (eo_ud e))); [exact UD|exact Ub|exact GU]|]. apply dec_ret.
      Qed.
      Hypothesis DA : forall L ab, wire_about (eo_about e) ab -> dec false L (about m) a' ab.
      Lemma eval_misfit L err : settles heap A (eo_vals e) (Err err) -> rej L read err bs.
      Proof.
        intro ST. destruct W as (lh & db & ab & rb & ub & Lh & Db & Ab & Rb & Ub & ->). pose proof SE as (I & C & V & SA & RS & UD). unfold deser_eval.
        rb; [apply (decodes_dec false), (deser_object_internal_decodes ty (eo_id e) lh TY I Lh)|]. cbn [fst snd]. rewrite Z.eqb_refl. cbn [negb refute bind].
        rb; [apply (binding_dec le false _ _ _ _ C V M Db)|]. rb; [apply (DA _ ab Ab)|].
        rb; [apply (decodes_dec false), (deser_sint_decodes 32); [exact okw32|exact RS|exact Rb]|]. cbn [fst snd].
        rewrite (found_becomes _ _ _ _ _ B). cbn [bind]. rewrite (created_in _ _ _ _ _ _ _ B V ST). now apply rej_now.
      Qed.
      Lemma eval_again L vs : settles heap A (eo_vals e) (Ok vs) -> keep = true -> m (eo_id e) <> None -> rej L read ERR_DUPLICATE_HANDLE bs.
      Proof.
        intros ST K MK. destruct W as (lh & db & ab & rb & ub & Lh & Db & Ab & Rb & Ub & ->). pose proof SE as (I & C & V & SA & RS & UD). unfold deser_eval.
        rb; [apply (decodes_dec false), (deser_object_internal_decodes ty (eo_id e) lh TY I Lh)|]. cbn [fst snd]. rewrite Z.eqb_refl. cbn [negb refute bind].
        rb; [apply (binding_dec le false _ _ _ _ C V M Db)|]. rb; [apply (DA _ ab Ab)|].
        rb; [apply (decodes_dec false), (deser_sint_decodes 32); [exact okw32|exact RS|exact Rb]|]. cbn [fst snd].
        rewrite (found_becomes _ _ _ _ _ B). cbn [bind]. rewrite (created_in _ _ _ _ _ _ _ B V ST). cbn [bind].
        rewrite K. unfold handle_check_add. destruct (m (eo_id e)); [|congruence]. now apply rej_now.
      Qed.
    End In.
    Lemma eval_lost L a' : (forall L ab, wire_about (eo_about e) ab -> dec false L (about m) a' ab) -> (forall o, option_map d_val (m (eo_ctx e)) <> Some (VObject o)) -> rej L read ERR_INVALID_HANDLE bs.
    Proof.
      intros DA NO. destruct W as (lh & db & ab & rb & ub & Lh & Db & Ab & Rb & Ub & ->). pose proof SE as (I & C & V & SA & RS & UD). unfold deser_eval.
      rb; [apply (decodes_dec false), (deser_object_internal_decodes ty (eo_id e) lh TY I Lh)|]. cbn [fst snd]. rewrite Z.eqb_refl. cbn [negb refute bind].
      rb; [apply (binding_dec le false _ _ _ _ C V M Db)|]. rb; [apply (DA _ ab Ab)|].
      rb; [apply (decodes_dec false), (deser_sint_decodes 32); [exact okw32|exact RS|exact Rb]|]. cbn [fst snd]. unfold found, hget.
      destruct (m (eo_ctx e)) as [d|]; cbn [option_map] in NO; [|now apply rej_now]. destruct (d_val d) eqn:Q; try (now apply rej_now). exfalso. now apply (NO h).
    Qed.
    Lemma eval_wrong L space a' : (forall L ab, wire_about (eo_about e) ab -> dec false L (about m) a' ab) -> option_map d_val (m (eo_ctx e)) = Some (VObject space) ->
      (forall c, space_at space <> Some (OT_OBJECTIVE_SPACE, c)) -> rej L read ERR_INVALID_OBJECT bs.
    Proof.
      intros DA MS NS. destruct W as (lh & db & ab & rb & ub & Lh & Db & Ab & Rb & Ub & ->). pose proof SE as (I & C & V & SA & RS & UD). unfold deser_eval.
      rb; [apply (decodes_dec false), (deser_object_internal_decodes ty (eo_id e) lh TY I Lh)|]. cbn [fst snd]. rewrite Z.eqb_refl. cbn [negb refute bind].
      rb; [apply (binding_dec le false _ _ _ _ C V M Db)|]. rb; [apply (DA _ ab Ab)|].
      rb; [apply (decodes_dec false), (deser_sint_decodes 32); [exact okw32|exact RS|exact Rb]|]. cbn [fst snd]. unfold found, hget.
      destruct (m (eo_ctx e)) as [d|]; cbn [option_map] in MS; [|discriminate]. injection MS as ->. cbn [bind]. unfold create_in.
      destruct (space_at space) as [[t c]|] eqn:Q; [|now apply rej_now]. destruct (Z.eqb_spec t OT_OBJECTIVE_SPACE) as [->|_]; [now destruct (NS c)|now apply rej_now].
    Qed.
  End Eval.
End Dec.

(** ** Outcomes *)
Definition takes {A} (de : rstate -> res (A * rstate)) (r : res A) (bs : list Z) (whole : Prop) : Prop :=
  match r with
  | Ok a => forall u L, (u = true -> whole) -> dec u L de a bs
  | Err e => forall L, rej L de e bs
  | UB _ => False
  end.
Lemma takes_gives {A} de (r : res A) bs whole : takes de r bs whole -> gives de r bs whole.
Proof.
  destruct r as [a|e|]; cbn [takes gives]; [intro D| |tauto].
  - split.
    + intros tl n N1 N2. destruct (D false (length bs) ltac:(discriminate)) as [X _]. apply X; auto.
    + intros Wh p q tl Q NQ LP. destruct (D true (length p) (fun _ => Wh)) as [_ X]. apply (X eq_refl p q tl); auto.
  - intros R tl n N1 N2. apply (R (length bs)); auto.
Qed.
Lemma takes_map {A B} de (f : A -> B) (a : A) bs whole : takes de (Ok a) bs whole -> takes (fun s => do (r, s) <- de s; Ok (f r, s)) (Ok (f a)) bs whole.
Proof. cbn [takes]. intros D u L H. rewrite <- (app_nil_r bs). db; [apply D; auto|]. apply dec_ret. Qed.
Lemma takes_map_err {A B} de (f : A -> B) e bs whole : takes de (Err e : res A) bs whole -> takes (fun s => do (r, s) <- de s; Ok (f r, s)) (Err e) bs whole.
Proof. cbn [takes]. intros D L. rewrite <- (app_nil_r bs). apply rej_head, D. Qed.
Section Outcome.
  Variables (mem : Z -> bool) (heap : Z -> param) (jen : list Z -> Z) (space_at : Z -> option (Z * context)) (m : hmap) (le : bool).
  Lemma no_memory vals : refused_memory mem (16 * lenZ vals) -> (vals : list datum) <> [] /\ mem (16 * lenZ vals) = false.
  Proof. intros [N F]. split; [intros ->; now apply N|exact F]. Qed.
  Lemma bobj_takes ty sty keep id b bs r : 0 <= ty < 128 -> storable_bobj b -> wire_bobj ty b bs ->
    bobj_outcome mem heap jen space_at m sty keep id b r ->
    takes (deser_bobj mem heap jen space_at le ty sty (Some m) keep id) r bs (ud_bytes (bo_ud b) = []).
  Proof.
    intros TY SB W O. destruct O as [RM|G U|space G MS NS|space A e G B S|space A vs G B S K MK|space A vs G B S K]; cbn [takes]; intros.
    - apply no_memory in RM. destruct RM. now apply bobj_oom with b.
    - now apply bobj_lost with b.
    - now apply bobj_wrong with b space.
    - now apply bobj_misfit with b space A.
    - now apply bobj_again with b space A vs.
    - apply bobj_dec with (A := A); auto. destruct keep; auto.
  Qed.
  Lemma conf_takes cid b bs r : storable_bobj b -> wire_bobj 5 b bs -> conf_outcome mem heap jen space_at m cid b r ->
    takes (read_conf mem heap jen space_at le cid m) r bs (ud_bytes (bo_ud b) = []).
  Proof.
    intros SB W [e O|b' O]; pose proof (bobj_takes 5 OT_CONFIGURATION_SPACE false cid b bs _ ltac:(lia) SB W O) as T.
    - exact (takes_map_err _ fst _ _ _ T).
    - exact (takes_map _ fst _ _ _ T).
  Qed.
  Lemma pair_takes cid fid p bs r : storable_pair p -> wire_pair p bs -> pair_outcome mem heap jen space_at m cid fid p r ->
    takes (read_pair mem heap jen space_at le cid fid m) r bs (ud_bytes (bo_ud (fst p)) = [] /\ ud_bytes (bo_ud (snd p)) = []).
  Proof.
    intros [S1 S2] (a & b & Wa & Wb & ->) O. unfold read_pair. destruct O as [e O|c e O1 O2|c f O1 O2].
    - pose proof (conf_takes _ _ _ _ S1 Wa O) as T. cbn [takes] in *. intro L. apply rej_head, T.
    - pose proof (conf_takes _ _ _ _ S1 Wa O1) as T1. pose proof (bobj_takes 10 _ false fid (snd p) b _ ltac:(lia) S2 Wb O2) as T2. cbn [takes] in *. intro L.
      rb; [apply (T1 false); discriminate|]. rewrite <- (app_nil_r b). apply rej_head, T2.
    - pose proof (conf_takes _ _ _ _ S1 Wa O1) as T1. pose proof (bobj_takes 10 _ false fid (snd p) b _ ltac:(lia) S2 Wb O2) as T2. cbn [takes] in *. intros u L H.
      db; [apply T1; tauto|]. rewrite <- (app_nil_r b). db; [apply T2; tauto|]. apply dec_ret.
  Qed.
  Lemma tconf_takes is_space cid t bs r : storable_conf t -> wire_conf t bs -> tconf_outcome mem m is_space cid t r ->
    takes (read_tconf mem is_space cid m) r bs (ud_bytes (tc_ud t) = []).
  Proof.
    intros SC W O. unfold read_tconf.
    assert (GR : forall l : list Z, RestoreSpec.granted mem (8 * lenZ l) -> l <> [] -> mem (8 * lenZ l) = true).
    { intros l G N. apply G. intro Z0. apply N. apply lenZ_0. lia. }
    destruct O as [[N F]|G U|space G MS IS|space G MS IS].
    - apply takes_map_err. cbn [takes]. intros L _ tl n N1 N2. apply conf_no_memory with t; auto. intro Z0. rewrite Z0 in N. now apply N.
    - apply takes_map_err. cbn [takes]. intros L _ tl n N1 N2. now apply (conf_refused t SC mem (GR _ G) is_space m cid 0 bs false W tl n N1 N2).
    - apply takes_map_err. cbn [takes]. intros L _ tl n N1 N2. now apply (conf_refused t SC mem (GR _ G) is_space m cid space bs false W tl n N1 N2).
    - destruct (m (tc_space t)) as [d|] eqn:MD; [|discriminate]. cbn in MS. injection MS as MS.
      apply (takes_map _ fst (mkConf cid space (tc_pos t) (restored_ud (tc_ud t)), m)). cbn [takes]. intros u L H.
      apply (conf_dec t SC mem (GR _ G) is_space m cid space u L bs false m d W MD MS IS eq_refl H).
  Qed.
  Lemma eval_takes E ty (storable_about : E -> Prop) wire_about about (about_outcome : E -> res E -> Prop) whole_about keep id (e : eobj E) bs r : 0 <= ty < 128 ->
    storable_eval storable_about e -> wire_eval ty wire_about e bs ->
    (forall ab r, wire_about (eo_about e) ab -> about_outcome (eo_about e) r -> takes (about m) r ab whole_about) ->
    eval_outcome mem heap jen space_at m about_outcome keep id e r ->
    takes (deser_eval mem heap jen space_at le ty about (Some m) keep id) r bs (whole_about /\ ud_bytes (eo_ud e) = []).
  Proof.
    intros TY SE W AT O. destruct O as [RM|err G AO|a G AO U|a space G AO MS NS|a space A err G AO B S|a space A vs G AO B S K MK|a space A vs G AO B S K]; cbn [takes]; intros.
    - apply no_memory in RM. destruct RM. destruct W as (lh & db & ab & rb & ub & Lh & Db & Ab & Rb & Ub & ->). pose proof SE as (I & C & V & SA & RS & UD). unfold deser_eval.
      rb; [apply (decodes_dec false), (deser_object_internal_decodes ty (eo_id e) lh TY I Lh)|]. cbn [fst snd]. rewrite Z.eqb_refl. cbn [negb refute bind].
      apply rej_head. now apply (binding_rej mem le _ (eo_ctx e) (eo_vals e)).
    - eapply eval_about; eauto. intros L' ab Ab. exact (AT ab _ Ab AO L').
    - eapply eval_lost; eauto. intros L' ab Ab. apply (AT ab _ Ab AO false L'). discriminate.
    - eapply eval_wrong; eauto. intros L' ab Ab. apply (AT ab _ Ab AO false L'). discriminate.
    - eapply eval_misfit; eauto. intros L' ab Ab. apply (AT ab _ Ab AO false L'). discriminate.
    - eapply eval_again; eauto. intros L' ab Ab. apply (AT ab _ Ab AO false L'). discriminate.
    - eapply eval_dec; eauto; [|destruct keep; auto|tauto]. intros L' ab Ab. apply (AT ab _ Ab AO u L'). tauto.
  Qed.
  (** There is always an outcome *)
  Lemma granted_or n : granted mem n \/ refused_memory mem n.
  Proof.
    unfold granted, refused_memory. destruct (Z.eq_dec n 0) as [->|N]; [left; congruence|]. destruct (mem n) eqn:E; [left; auto|right; auto].
  Qed.
  Lemma known_or h : (exists o, option_map d_val (m h) = Some (VObject o)) \/ unknown m h.
  Proof.
    unfold unknown. destruct (m h) as [d|]; cbn [option_map]; [|right; discriminate]. destruct (d_val d); (left; eexists; reflexivity) || (right; discriminate).
  Qed.
  Lemma place sty space old : spaces heap jen space_at -> option_map d_val (m old) = Some (VObject space) ->
    (exists A, becomes heap jen space_at m old sty space A) \/ (forall c, space_at space <> Some (sty, c)).
  Proof.
    intros SP MS. destruct (space_at space) as [[t c]|] eqn:SA; [|right; discriminate]. destruct (Z.eq_dec t sty) as [->|N]; [|right; congruence].
    left. exists (c_params c). split; [exact MS|]. destruct (SP _ _ _ SA) as (k & nm & l & rs & X & Y). exists c, k, nm, l, rs. auto.
  Qed.
  Lemma settled_or A vals r : settles heap A vals r -> (exists vs, r = Ok vs) \/ exists e, r = Err e.
  Proof. intros []; eauto. Qed.
  Lemma fresh_or (keep : bool) h : (keep = true -> m h = None) \/ (keep = true /\ m h <> None).
  Proof. destruct keep; [destruct (m h); [right; split; congruence|left; auto]|left; discriminate]. Qed.
  Lemma bobj_some sty keep id b : spaces heap jen space_at -> storable_bobj b -> exists r, bobj_outcome mem heap jen space_at m sty keep id b r.
  Proof.
    intros SP (_ & _ & SV & _). destruct (granted_or (16 * lenZ (bo_vals b))) as [G|G]; [|eexists; now apply bo_memory].
    destruct (known_or (bo_ctx b)) as [[space MS]|U]; [|eexists; now apply bo_lost].
    destruct (place sty space _ SP MS) as [[A B]|NS]; [|eexists; eapply bo_wrong; eassumption].
    pose proof (create_settles heap jen space_at m _ sty space A _ B SV) as S. destruct (settled_or _ _ _ S) as [[vs E]|[e E]]; rewrite E in S; [|eexists; eapply bo_misfit; eassumption].
    destruct (fresh_or keep (bo_id b)) as [F|[K F]]; eexists; [eapply bo_had; eassumption|eapply bo_again; eassumption].
  Qed.
  Lemma bobj_unrecorded sty id b a m' : bobj_outcome mem heap jen space_at m sty false id b (Ok (a, m')) -> m' = m.
  Proof. intro O. inversion O. reflexivity. Qed.
  Lemma bobj_no_ub sty keep id b u : ~ bobj_outcome mem heap jen space_at m sty keep id b (UB u).
  Proof. intro O. inversion O. Qed.
  Lemma conf_some cid b : spaces heap jen space_at -> storable_bobj b -> exists r, conf_outcome mem heap jen space_at m cid b r.
  Proof.
    intros SP SB. destruct (bobj_some OT_CONFIGURATION_SPACE false cid b SP SB) as [[[a m']|e|u] O].
    - rewrite (bobj_unrecorded _ _ _ _ _ O) in O. eexists; eapply co_had; eassumption.
    - eexists; eapply co_fails; eassumption.
    - now destruct (bobj_no_ub _ _ _ _ _ O).
  Qed.
  Lemma pair_some cid fid p : spaces heap jen space_at -> storable_pair p -> exists r, pair_outcome mem heap jen space_at m cid fid p r.
  Proof.
    intros SP [S1 S2]. destruct (conf_some cid (fst p) SP S1) as [[a|e|u] O]; [|eexists; eapply po_first; eassumption|inversion O].
    destruct (bobj_some OT_FEATURES_SPACE false fid (snd p) SP S2) as [[[f m']|e|u] O2].
    - rewrite (bobj_unrecorded _ _ _ _ _ O2) in O2. eexists; eapply po_had; eauto.
    - eexists; eapply po_second; eauto.
    - now destruct (bobj_no_ub _ _ _ _ _ O2).
  Qed.
  Lemma tconf_some is_space cid t : exists r, tconf_outcome mem m is_space cid t r.
  Proof.
    destruct (granted_or (8 * lenZ (tc_pos t))) as [G|G]; [|eexists; eapply to_memory; eassumption].
    destruct (known_or (tc_space t)) as [[space MS]|U]; [|eexists; eapply to_lost; eassumption].
    destruct (is_space space) eqn:IS; eexists; [eapply to_had|eapply to_wrong]; eauto.
  Qed.
  Lemma eval_some E (storable_about : E -> Prop) (about_outcome : E -> res E -> Prop) keep id (e : eobj E) : spaces heap jen space_at -> storable_eval storable_about e ->
    (exists r, about_outcome (eo_about e) r) -> (forall r u, about_outcome (eo_about e) r -> r <> UB u) ->
    exists r, eval_outcome mem heap jen space_at m about_outcome keep id e r.
  Proof.
    intros SP (_ & _ & SV & _) [ar AO] NU. destruct (granted_or (16 * lenZ (eo_vals e))) as [G|G]; [|eexists; eapply eo_memory; eassumption].
    destruct ar as [a|err|u]; [|eexists; eapply eo_fails; eassumption|now destruct (NU _ u AO)].
    destruct (known_or (eo_ctx e)) as [[space MS]|U]; [|eexists; eapply eo_lost; eassumption].
    destruct (place OT_OBJECTIVE_SPACE space _ SP MS) as [[A B]|NS]; [|eexists; eapply eo_wrong; eassumption].
    pose proof (create_settles heap jen space_at m _ _ space A _ B SV) as S. destruct (settled_or _ _ _ S) as [[vs E']|[e' E']]; rewrite E' in S; [|eexists; eapply eo_misfit; eassumption].
    destruct (fresh_or keep (eo_id e)) as [F|[K F]]; eexists; [eapply eo_had; eassumption|eapply eo_again; eassumption].
  Qed.
End Outcome.

(** ** The kinds of evaluations *)
Lemma pair_written le p : storable_pair p -> exists bs, wire_pair p bs /\ encodes (ser_pair le p) bs /\ size_pair p = Ok (lenZ bs).
Proof.
  intros [S1 S2]. destruct (bobj_written le 5 (fst p) ltac:(lia) S1) as (a & Wa & Ea & Sa). destruct (bobj_written le 10 (snd p) ltac:(lia) S2) as (b & Wb & Eb & Sb).
  exists (a ++ b). split; [exists a, b; auto|]. unfold ser_pair, size_pair, OBJ_CONFIGURATION, OBJ_FEATURES. split; [now apply encodes_seq|].
  rewrite Sa. cbn [bind]. rewrite Sb. cbn [bind]. now rewrite lenZ_app.
Qed.
Lemma writings le :
  (forall b, storable_bobj b -> exists bs, wire_bobj 5 b bs /\ encodes (ser_bobj le OBJ_CONFIGURATION b) bs /\ size_bobj OBJ_CONFIGURATION b = Ok (lenZ bs)) /\
  (forall b, storable_bobj b -> exists bs, wire_bobj 10 b bs /\ encodes (ser_bobj le OBJ_FEATURES b) bs /\ size_bobj OBJ_FEATURES b = Ok (lenZ bs)) /\
  (forall e, storable_eval storable_bobj e -> exists bs, wire_eval 7 (wire_bobj 5) e bs /\
     encodes (ser_eval le OBJ_EVALUATION (ser_bobj le OBJ_CONFIGURATION) e) bs /\ size_eval OBJ_EVALUATION (size_bobj OBJ_CONFIGURATION) e = Ok (lenZ bs)) /\
  (forall e, storable_eval storable_pair e -> exists bs, wire_eval 11 wire_pair e bs /\
     encodes (ser_eval le OBJ_FEATURES_EVALUATION (ser_pair le) e) bs /\ size_eval OBJ_FEATURES_EVALUATION size_pair e = Ok (lenZ bs)) /\
  (forall e, storable_eval storable_conf e -> exists bs, wire_eval 18 wire_conf e bs /\
     encodes (ser_eval le OBJ_TREE_EVALUATION ser_conf e) bs /\ size_eval OBJ_TREE_EVALUATION (fun c => Ok (size_conf c)) e = Ok (lenZ bs)).
Proof.
  split; [|split; [|split; [|split]]].
  - intros b S. apply bobj_written; [unfold OBJ_CONFIGURATION; lia|exact S].
  - intros b S. apply bobj_written; [unfold OBJ_FEATURES; lia|exact S].
  - intros e S. eapply eval_written; [unfold OBJ_EVALUATION; lia|exact S|]. apply bobj_written; [unfold OBJ_CONFIGURATION; lia|apply S].
  - intros e S. eapply eval_written; [unfold OBJ_FEATURES_EVALUATION; lia|exact S|]. apply pair_written, S.
  - intros e S. eapply eval_written; [unfold OBJ_TREE_EVALUATION; lia|exact S|]. destruct (conf_written (eo_about e)) as (bs & W & E & Z); [apply S|].
    exists bs. split; [exact W|]. split; [exact E|]. now rewrite Z.
Qed.
Section Kinds.
  Variables (mem : Z -> bool) (heap : Z -> param) (jen : list Z -> Z) (space_at : Z -> option (Z * context)) (m : hmap) (le keep : bool) (id : Z) (bs : list Z).
  Lemma configuration_restored b r : storable_bobj b -> wire_bobj 5 b bs -> bobj_outcome mem heap jen space_at m OT_CONFIGURATION_SPACE keep id b r ->
    gives (deser_bobj mem heap jen space_at le OBJ_CONFIGURATION OT_CONFIGURATION_SPACE (Some m) keep id) r bs (ud_bytes (bo_ud b) = []).
  Proof. intros S W O. eapply takes_gives, bobj_takes; eauto. unfold OBJ_CONFIGURATION; lia. Qed.
  Lemma features_restored b r : storable_bobj b -> wire_bobj 10 b bs -> bobj_outcome mem heap jen space_at m OT_FEATURES_SPACE keep id b r ->
    gives (deser_bobj mem heap jen space_at le OBJ_FEATURES OT_FEATURES_SPACE (Some m) keep id) r bs (ud_bytes (bo_ud b) = []).
  Proof. intros S W O. eapply takes_gives, bobj_takes; eauto. unfold OBJ_FEATURES; lia. Qed.
  Lemma bindings_other b : storable_bobj b ->
    (wire_bobj 5 b bs -> gives (deser_bobj mem heap jen space_at le OBJ_FEATURES OT_FEATURES_SPACE (Some m) keep id) (Err ERR_INVALID_TYPE) bs True) /\
    (wire_bobj 10 b bs -> gives (deser_bobj mem heap jen space_at le OBJ_CONFIGURATION OT_CONFIGURATION_SPACE (Some m) keep id) (Err ERR_INVALID_TYPE) bs True).
  Proof.
    intro S. split; intro W; apply takes_gives; cbn [takes]; intro L.
    - eapply (bobj_other mem heap jen space_at le 5); eauto; unfold OBJ_FEATURES; lia.
    - eapply (bobj_other mem heap jen space_at le 10); eauto; unfold OBJ_CONFIGURATION; lia.
  Qed.
  Lemma evaluation_restored cid e r : storable_eval storable_bobj e -> wire_eval 7 (wire_bobj 5) e bs ->
    eval_outcome mem heap jen space_at m (conf_outcome mem heap jen space_at m cid) keep id e r ->
    gives (deser_eval mem heap jen space_at le OBJ_EVALUATION (read_conf mem heap jen space_at le cid) (Some m) keep id) r bs
      (ud_bytes (bo_ud (eo_about e)) = [] /\ ud_bytes (eo_ud e) = []).
  Proof.
    intros S W O. eapply takes_gives, eval_takes; eauto; [unfold OBJ_EVALUATION; lia|]. intros ab r' Wa Oa. eapply conf_takes; eauto. apply S.
  Qed.
  Lemma features_evaluation_restored cid fid e r : storable_eval storable_pair e -> wire_eval 11 wire_pair e bs ->
    eval_outcome mem heap jen space_at m (pair_outcome mem heap jen space_at m cid fid) keep id e r ->
    gives (deser_eval mem heap jen space_at le OBJ_FEATURES_EVALUATION (read_pair mem heap jen space_at le cid fid) (Some m) keep id) r bs
      ((ud_bytes (bo_ud (fst (eo_about e))) = [] /\ ud_bytes (bo_ud (snd (eo_about e))) = []) /\ ud_bytes (eo_ud e) = []).
  Proof.
    intros S W O. eapply takes_gives, eval_takes; eauto; [unfold OBJ_FEATURES_EVALUATION; lia|]. intros ab r' Wa Oa. eapply pair_takes; eauto. apply S.
  Qed.
  Lemma tree_evaluation_restored is_space cid e r : storable_eval storable_conf e -> wire_eval 18 wire_conf e bs ->
    eval_outcome mem heap jen space_at m (tconf_outcome mem m is_space cid) keep id e r ->
    gives (deser_eval mem heap jen space_at le OBJ_TREE_EVALUATION (read_tconf mem is_space cid) (Some m) keep id) r bs
      (ud_bytes (tc_ud (eo_about e)) = [] /\ ud_bytes (eo_ud e) = []).
  Proof.
    intros S W O. eapply takes_gives, eval_takes; eauto; [unfold OBJ_TREE_EVALUATION; lia|]. intros ab r' Wa Oa. eapply tconf_takes; eauto. apply S.
  Qed.
  Lemma outcomes_exist : spaces heap jen space_at ->
    (forall sty b, storable_bobj b -> exists r, bobj_outcome mem heap jen space_at m sty keep id b r) /\
    (forall cid e, storable_eval storable_bobj e -> exists r, eval_outcome mem heap jen space_at m (conf_outcome mem heap jen space_at m cid) keep id e r) /\
    (forall cid fid e, storable_eval storable_pair e -> exists r, eval_outcome mem heap jen space_at m (pair_outcome mem heap jen space_at m cid fid) keep id e r) /\
    (forall is_space cid e, storable_eval storable_conf e -> exists r, eval_outcome mem heap jen space_at m (tconf_outcome mem m is_space cid) keep id e r).
  Proof.
    intro SP. split; [|split; [|split]].
    - intros sty b S. now apply bobj_some.
    - intros cid e S. eapply eval_some; eauto; [apply conf_some; [exact SP|apply S]|]. intros r u [|]; discriminate.
    - intros cid fid e S. eapply eval_some; eauto; [apply pair_some; [exact SP|apply S]|]. intros r u [| |]; discriminate.
    - intros is_space cid e S. eapply eval_some; eauto; [apply tconf_some|]. intros r u [| | |]; discriminate.
  Qed.
End Kinds.
Lemma unmapped mem heap jen space_at le keep id s :
  (forall ty sty, deser_bobj mem heap jen space_at le ty sty None keep id s = Err ERR_INVALID_OBJECT) /\
  (forall E ty about, @deser_eval mem heap jen space_at E le ty about None keep id s = Err ERR_INVALID_OBJECT).
Proof. split; reflexivity. Qed.
(** The bytes of another type of object *)
Lemma restored_other ty h lh : 0 <= ty < 128 -> in_unsigned 64 h -> leb128 h lh ->
  (forall mem is_space m keep id, ty <> 17 -> gives (deser_conf mem is_space (Some m) keep id) (Err ERR_INVALID_TYPE) (ty :: lh) True) /\
  forall mem heap jen space_at le m keep id,
    (forall oty sty, ty <> oty -> gives (deser_bobj mem heap jen space_at le oty sty (Some m) keep id) (Err ERR_INVALID_TYPE) (ty :: lh) True) /\
    (forall E oty about, ty <> oty -> gives (@deser_eval mem heap jen space_at E le oty about (Some m) keep id) (Err ERR_INVALID_TYPE) (ty :: lh) True).
Proof.
  intros T I L. split; [intros mem is_space m keep id N|intros mem heap jen space_at le m keep id; split; [intros oty sty N|intros E oty about N]];
    apply takes_gives; cbn [takes]; intro L0; rewrite <- (app_nil_r (ty :: lh)); unfold deser_conf, deser_bobj, deser_eval;
    (rb; [apply (decodes_dec false), (deser_object_internal_decodes ty h lh T I L)|]); cbn [fst].
  - change OBJ_TREE_CONFIGURATION with 17. destruct (Z.eqb_spec ty 17); [contradiction|]. cbn [negb refute bind]. now apply rej_now.
  - destruct (Z.eqb_spec ty oty); [contradiction|]. cbn [negb refute bind]. now apply rej_now.
  - destruct (Z.eqb_spec ty oty); [contradiction|]. cbn [negb refute bind]. now apply rej_now.
Qed.
