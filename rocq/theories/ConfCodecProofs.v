(** Proofs about the restoration of configuration spaces: the bytes. *)
From Coq Require Import ZArith List Bool Lia Arith.
From Verif Require Import Base Datum CodecModel CodecSpec CodecProofs ParamModel ParamSpec ContextModel ContextSpec ExprModel ExprSpec ExprCodec RngModel RngSpec RngProofs TreeCodecSpec TreeCodec TreeSpaceSpec TreeSpaceCodec TreeConfModel RestoreSpec RestoreProofs TunerCodecSpec TunerCodecProofs DistModel DistCodecModel DistCodecSpec DistCodecProofs SpaceCodecModel SpaceCodecSpec SpaceCodecProofs SpaceModel SpaceSpec ConfCodecModel ConfCodecSpec.
Import ListNotations.
Open Scope Z_scope.

(** ** New handles *)
Definition fresh (hl : notes) (l : list Z) : Prop := NoDup l /\ forall h, In h l -> ~ In h (map fst hl).
Lemma fresh_app hl a b pairs : map fst pairs = a -> fresh hl (a ++ b) <-> fresh hl a /\ fresh (hl ++ pairs) b.
Proof.
  intro E. unfold fresh. rewrite map_app, E. split.
  - intros [N F]. assert (NA : NoDup a /\ NoDup b /\ forall h, In h a -> ~ In h b).
    { clear E F. induction a as [|x a IH]; cbn in N; [repeat split; auto; constructor|]. inversion N as [|? ? NI N']; subst. destruct (IH N') as (A & B & C). split; [constructor; [intro Q; apply NI; apply in_or_app; now left|exact A]|]. split; [exact B|].
      intros h [<-|H]; [intro Q; apply NI; apply in_or_app; now right|now apply C]. }
    destruct NA as (NA & NB & D). repeat split; auto.
    + intros h H. apply F. apply in_or_app. now left.
    + intros h H Q. apply in_app_or in Q. destruct Q as [Q|Q]; [revert Q; apply F; apply in_or_app; now right|exact (D h Q H)].
  - intros [[NA FA] [NB FB]]. split.
    + clear E FA. induction NA as [|x a NI NA IH]; cbn; [exact NB|]. constructor; [|apply IH; intros h H Q; apply (FB h H); apply in_app_or in Q; apply in_or_app; destruct Q; [now left|right; now right]].
      intro Q. apply in_app_or in Q. destruct Q as [Q|Q]; [contradiction|]. apply (FB x Q). apply in_or_app. right. now left.
    + intros h H. apply in_app_or in H. destruct H as [H|H]; [now apply FA|]. intro Q. apply (FB h H). apply in_or_app. now left.
Qed.
Lemma fresh_nil hl : fresh hl [].
Proof. split; [constructor|intros h []]. Qed.
Lemma fresh_dec hl l : fresh hl l \/ ~ fresh hl l.
Proof.
  revert hl. induction l as [|x l IH]; intro hl; [left; apply fresh_nil|]. change (x :: l) with ([x] ++ l).
  destruct (in_dec Z.eq_dec x (map fst hl)) as [I|N].
  - right. intros [_ F]. apply (F x); [now left|exact I].
  - destruct (IH (hl ++ [(x, x)])) as [F|F].
    + left. apply (fresh_app hl [x] l [(x, x)] eq_refl). split; [|exact F]. split; [repeat constructor; intros []|]. intros h [<-|[]]. exact N.
    + right. intro Q. apply F. now apply (fresh_app hl [x] l [(x, x)] eq_refl) in Q.
Qed.
Lemma fresh_cons hl x l y : fresh hl (x :: l) -> ~ In x (map fst hl) /\ fresh (hl ++ [(x, y)]) l.
Proof. intro F. apply (fresh_app hl [x] l [(x, y)] eq_refl) in F. destruct F as [[_ F] G]. split; [apply F; now left|exact G]. Qed.
Lemma fresh_more hl x l y : ~ fresh hl (x :: l) -> ~ In x (map fst hl) -> ~ fresh (hl ++ [(x, y)]) l.
Proof.
  intros NF NI F. apply NF. apply (fresh_app hl [x] l [(x, y)] eq_refl). split; [|exact F]. split; [repeat constructor; intros []|]. intros h [<-|[]]. exact NI.
Qed.

(** The conditions with their indexes *)
Fixpoint numbered (i : Z) (l : list (option expr)) : list (Z * expr) :=
  match l with [] => [] | None :: l => numbered (i + 1) l | Some e :: l => (i, e) :: numbered (i + 1) l end.
Lemma count_is l : count_conditions l = lenZ (conditions_of l).
Proof. induction l as [|[e|] l IH]; cbn; auto. rewrite IH. change (1 + lenZ (conditions_of l) = lenZ ([e] ++ conditions_of l)). rewrite lenZ_app. reflexivity. Qed.
Lemma conditions_less l : lenZ (conditions_of l) <= lenZ l.
Proof. induction l as [|[e|] l IH]; [reflexivity| |]; cbn [conditions_of flat_map app]; fold (conditions_of l); rewrite ?lenZ_cons; lia. Qed.
Definition noted_exprs (hl : notes) (l : list expr) : notes := hl ++ map (fun e => (name_of_expr e, name_of_expr e)) l.
Lemma noted_exprs_fst (l : list expr) : map (@fst Z Z) (map (fun e => (name_of_expr e, name_of_expr e)) l) = map name_of_expr l.
Proof. rewrite map_map. reflexivity. Qed.
(** The distributions restored *)
Fixpoint redone (did : nat -> Z) (i : nat) (ds ds' : list cdist) : list cdist :=
  match ds, ds' with
  | d :: ds, d' :: ds' => set_dobj d' (mkObj (did i) (restored_ud (o_ud (dobj_of d)))) :: redone did (S i) ds ds'
  | _, _ => []
  end.
Definition noted_dists (did : nat -> Z) (hl : notes) (i : nat) (l : list dwrapper) : notes := hl ++ combine (map dw_dist l) (map did (seq i (length l))).
Lemma noted_dists_fst did i l : map (@fst Z Z) (combine (map dw_dist l) (map did (seq i (length l)))) = map dw_dist l.
Proof. revert i. induction l as [|w l IH]; intro i; cbn; [reflexivity|]. now rewrite IH. Qed.

(** ** What is written *)
Section Written.
  Variables (le : bool) (types : list gtype) (flog : Z -> Z) (dheap : Z -> cdist) (dimension : Z -> nat).
  Lemma conditions_written known l : Forall ExprSpec.storable (conditions_of l) -> Forall (wf_expr known) (conditions_of l) -> forall i, 0 <= i -> i + lenZ l < 2 ^ 64 -> exists bs, wire_conditions i l bs /\
    encodes (ser_conditions le i l) bs /\ size_conditions i l = Ok (lenZ bs).
  Proof.
    induction l as [|[e|] l IH]; intros F W i N0 N1.
    - exists []. split; [constructor|]. split; [apply encodes_nil|reflexivity].
    - cbn [conditions_of flat_map app] in F, W. fold (conditions_of l) in F, W. inversion F as [|? ? SE FL]; subst. inversion W as [|? ? WE WL]; subst. rewrite lenZ_cons in N1. pose proof (lenZ_nonneg l).
      destruct (IH FL WL (i + 1)) as (bs & B1 & B2 & B3); [lia|lia|]. destruct (leb128_exists i N0) as [k K]. destruct (wire_expr_exists known e WE SE) as [eb EB].
      destruct (expr_size_encodes le known e WE SE eb EB) as [EE ES]. assert (IU : in_unsigned 64 i) by (split; lia).
      exists (k ++ eb ++ bs). split; [now constructor|]. split; [cbn [ser_conditions]; apply encodes_seq; [apply ser_uint_encodes; auto using okw64|]; now apply encodes_seq|].
      cbn [size_conditions]. rewrite ES, B3. cbn [bind]. unfold size_size. rewrite (size_uint_ok 64 i k) by auto using okw64. f_equal. rewrite !lenZ_app. lia.
    - cbn [conditions_of flat_map app] in F, W. fold (conditions_of l) in F, W. rewrite lenZ_cons in N1. destruct (IH F W (i + 1)) as (bs & B1 & B2 & B3); [lia|lia|]. exists bs. split; [now constructor|]. split; assumption.
  Qed.
  Lemma clauses_written known l : Forall ExprSpec.storable l -> Forall (wf_expr known) l -> exists bs, wire_all wire_expr l bs /\
    encodes (ser_clauses le l) bs /\ size_clauses l = Ok (lenZ bs).
  Proof.
    induction l as [|e l IH]; intros F W.
    - exists []. split; [constructor|]. split; [apply encodes_nil|reflexivity].
    - inversion F as [|? ? SE FL]; subst. inversion W as [|? ? WE WL]; subst. destruct (IH FL WL) as (bs & B1 & B2 & B3). destruct (wire_expr_exists known e WE SE) as [eb EB].
      destruct (expr_size_encodes le known e WE SE eb EB) as [EE ES]. exists (eb ++ bs). split; [now constructor|]. split; [cbn [ser_clauses]; now apply encodes_seq|].
      cbn [size_clauses]. rewrite ES, B3. cbn [bind]. now rewrite lenZ_app.
  Qed.
  Lemma indexes_written l : Forall (fun i => Z.of_nat i < 2 ^ 64) l -> exists bs, wire_all (fun i => leb128 (Z.of_nat i)) l bs /\
    encodes (ser_indexes l) bs /\ size_indexes l = lenZ bs.
  Proof.
    induction 1 as [|i l H F (bs & B1 & B2 & B3)]; [exists []; split; [constructor|split; [apply encodes_nil|reflexivity]]|].
    destruct (leb128_exists (Z.of_nat i)) as [k K]; [lia|]. assert (IU : in_unsigned 64 (Z.of_nat i)) by (split; lia). exists (k ++ bs). split; [now constructor|].
    split; [cbn [ser_indexes]; apply encodes_seq; [apply ser_uint_encodes; auto using okw64|exact B2]|]. cbn [size_indexes]. unfold size_size. rewrite (size_uint_ok 64 (Z.of_nat i) k) by auto using okw64. rewrite B3, lenZ_app. reflexivity.
  Qed.
  Lemma dists_written l : Forall (storable_wrapper flog dheap dimension) l -> Forall (fun w => lenZ (dw_indexes w) < 2 ^ 64 /\ Forall (fun i => Z.of_nat i < 2 ^ 64) (dw_indexes w)) l ->
    exists bs, wire_all (wire_wrapper dheap) l bs /\ encodes (ser_dists le dheap l) bs /\ size_dists dheap l = Ok (lenZ bs).
  Proof.
    induction 1 as [|w l (M & S & _) F IH]; intro W; [exists []; split; [constructor|split; [apply encodes_nil|reflexivity]]|].
    inversion W as [|? ? [WL WI] WS]; subst. destruct (IH WS) as (bs & B1 & B2 & B3). destruct (dist_wire_exists flog _ M S) as (bb & WB). destruct (wire_dist_exists _ bb WB) as (db & DB).
    destruct (dist_encodes le flog _ M S db DB) as [ED SD]. pose proof (lenZ_nonneg (dw_indexes w)) as L0. destruct (leb128_exists _ L0) as [ln LN]. destruct (indexes_written _ WI) as (ib & I1 & I2 & I3).
    assert (IU : in_unsigned 64 (lenZ (dw_indexes w))) by (split; lia). exists ((db ++ ln ++ ib) ++ bs). split; [constructor; [exists db, ln, ib; auto|exact B1]|].
    rewrite <- !app_assoc. split; [cbn [ser_dists]; apply encodes_seq; [exact ED|]; apply encodes_seq; [apply ser_uint_encodes; auto using okw64|]; now apply encodes_seq|].
    cbn [size_dists]. rewrite SD, B3. cbn [bind]. unfold size_size. rewrite (size_uint_ok 64 _ ln) by auto using okw64. rewrite I3. f_equal. rewrite !lenZ_app. lia.
  Qed.
End Written.

(** ** What is read *)
Section Reading.
  Variables (jen : list Z -> Z) (le : bool) (heap : Z -> param) (pud : Z -> option (list Z)) (pid did : nat -> Z).
  Variables (types : list gtype) (flog : Z -> Z) (dheap : Z -> cdist) (dimension : Z -> nat).
  Variables (id : Z) (ud : option (list Z)) (c : context) (A : list Z).
  Hypothesis SS : storable_space jen heap pud id ud c A.
  Variables (otype : Z -> option Z) (f : Z -> Z) (mem : Z -> bool).
  Hypothesis OT : forall i, (i < length A)%nat -> otype (pid i) = Some OBJ_PARAMETER.
  Hypothesis MV : moves pid A f.
  Notation shares := (shares A f).
  Notation wf := (wf_expr (fun h => In h A)).
  Lemma cell_ok room k : 8 * (k + 1) <= room -> cell room k = Ok tt.
  Proof. intro H. unfold cell. now replace (room <? 8 * (k + 1)) with false by (symmetry; apply Z.ltb_ge; lia). Qed.
  Lemma slot_dec e u L hl eb : wf e -> ExprSpec.storable e -> shares hl -> wire_expr e eb -> ~ In (name_of_expr e) (map fst hl) -> (u = true -> no_user_data e) ->
    dec u L (deser_slot jen le otype hl) (restored f e, hl ++ [(name_of_expr e, name_of_expr e)]) eb.
  Proof.
    intros W S SH EB NI U. unfold deser_slot. rewrite <- (app_nil_r eb). db; [eapply objective_dec; eassumption|]. rewrite restored_id. fold (name_of_expr e).
    rewrite note_fresh; [|apply SH|apply storable_id; exact S|exact NI]. cbn [released_twice bind]. apply dec_ret.
  Qed.
  Lemma slot_die e L hl eb : wf e -> ExprSpec.storable e -> shares hl -> wire_expr e eb -> In (name_of_expr e) (map fst hl) -> dies L (deser_slot jen le otype hl) eb.
  Proof.
    intros W S SH EB I. unfold deser_slot. rewrite <- (app_nil_r eb). ub; [eapply (objective_dec jen le heap pud pid id ud c A SS otype f OT MV e false); try eassumption; discriminate|].
    apply dies_now. intro s. rewrite restored_id. fold (name_of_expr e). rewrite note_again; [reflexivity|apply SH|apply storable_id; exact S|exact I].
  Qed.
  Definition back_cond (p : Z * expr) : Z * expr := (fst p, restored f (snd p)).
  Lemma conditions_dec room np nc : 0 <= nc -> forall l, Forall wf (conditions_of l) -> Forall ExprSpec.storable (conditions_of l) ->
    forall k bs, wire_conditions k l bs -> 0 <= k -> k + lenZ l < 2 ^ 64 ->
    forall i hl u L, shares hl -> fresh hl (map name_of_expr (conditions_of l)) -> 8 * (np + nc + (i + lenZ (conditions_of l))) <= room ->
      (u = true -> Forall no_user_data (conditions_of l)) ->
      dec u L (deser_conditions jen le otype room np nc (length (conditions_of l)) i hl) (map back_cond (numbered k l), noted_exprs hl (conditions_of l)) bs.
  Proof.
    intros NC l. induction l as [|[e|] l IH]; intros W S k bs B K0 K1 i hl u L SH F RM U; inversion B; subst.
    - cbn. unfold noted_exprs. cbn. rewrite app_nil_r. apply dec_ret.
    - cbn [conditions_of flat_map app] in *. fold (conditions_of l) in *. cbn [map length deser_conditions numbered] in *. inversion W; subst. inversion S; subst. rewrite !lenZ_cons in *. pose proof (lenZ_nonneg l). pose proof (lenZ_nonneg (conditions_of l)).
      apply (fresh_cons _ _ _ (name_of_expr e)) in F. destruct F as [NI F]. rewrite cell_ok by lia. cbn [bind]. db; [apply decodes_dec, deser_uint_decodes; [apply okw64| |eassumption]; split; lia|].
      rewrite cell_ok by lia. cbn [bind]. db; [apply slot_dec; try eassumption; intro Q; specialize (U Q); now inversion U|]. cbn [fst snd].
      match goal with H : wire_conditions _ l ?b |- _ => rewrite <- (app_nil_r b); db; [apply (IH ltac:(assumption) ltac:(assumption) _ _ H); [lia|lia|apply shares_more; [exact SH|apply storable_id; assumption]|exact F|lia|intro Q; specialize (U Q); now inversion U]|] end.
      cbn [fst snd]. unfold noted_exprs. cbn [map]. rewrite <- app_assoc. apply dec_ret.
    - cbn [conditions_of flat_map app numbered] in *. fold (conditions_of l) in *. rewrite lenZ_cons in *. apply IH; auto; lia.
  Qed.
  Lemma conditions_die room np nc : 0 <= nc -> forall l, Forall wf (conditions_of l) -> Forall ExprSpec.storable (conditions_of l) ->
    forall k bs, wire_conditions k l bs -> 0 <= k -> k + lenZ l < 2 ^ 64 ->
    forall i hl L, shares hl -> ~ fresh hl (map name_of_expr (conditions_of l)) -> 8 * (np + nc + (i + lenZ (conditions_of l))) <= room ->
      dies L (deser_conditions jen le otype room np nc (length (conditions_of l)) i hl) bs.
  Proof.
    intros NC l. induction l as [|[e|] l IH]; intros W S k bs B K0 K1 i hl L SH F RM; inversion B; subst.
    - destruct (F (fresh_nil hl)).
    - cbn [conditions_of flat_map app] in *. fold (conditions_of l) in *. cbn [map length deser_conditions numbered] in *. inversion W; subst. inversion S; subst. rewrite !lenZ_cons in *. pose proof (lenZ_nonneg l). pose proof (lenZ_nonneg (conditions_of l)).
      rewrite cell_ok by lia. cbn [bind]. ub; [apply (decodes_dec false), deser_uint_decodes; [apply okw64| |eassumption]; split; lia|].
      rewrite cell_ok by lia. cbn [bind]. destruct (in_dec Z.eq_dec (name_of_expr e) (map fst hl)) as [I|NI]; [apply dies_head; eapply slot_die; eassumption|].
      ub; [apply (slot_dec e false); try eassumption; discriminate|]. cbn [fst snd].
      match goal with H : wire_conditions _ l ?b |- _ => rewrite <- (app_nil_r b); apply dies_head; apply (IH ltac:(assumption) ltac:(assumption) _ _ H); [lia|lia|apply shares_more; [exact SH|apply storable_id; assumption]|now apply fresh_more|lia] end.
    - cbn [conditions_of flat_map app numbered] in *. fold (conditions_of l) in *. rewrite lenZ_cons in *. apply (IH W S (k + 1)); auto; lia.
  Qed.
  Lemma clauses_dec room base : forall l, Forall wf l -> Forall ExprSpec.storable l -> forall bs, wire_all wire_expr l bs ->
    forall i hl u L, shares hl -> fresh hl (map name_of_expr l) -> 8 * (base + (i + lenZ l)) <= room -> (u = true -> Forall no_user_data l) ->
      dec u L (deser_clauses jen le otype room base (length l) i hl) (map (restored f) l, noted_exprs hl l) bs.
  Proof.
    induction l as [|e l IH]; intros W S bs B i hl u L SH F RM U; inversion B; subst.
    - cbn. unfold noted_exprs. cbn. rewrite app_nil_r. apply dec_ret.
    - cbn [map length deser_clauses] in *. inversion W; subst. inversion S; subst. rewrite !lenZ_cons in *. pose proof (lenZ_nonneg l).
      apply (fresh_cons _ _ _ (name_of_expr e)) in F. destruct F as [NI F]. rewrite cell_ok by lia. cbn [bind].
      db; [apply slot_dec; try eassumption; intro Q; specialize (U Q); now inversion U|]. cbn [fst snd].
      match goal with H : wire_all _ l ?b |- _ => rewrite <- (app_nil_r b); db; [apply (IH ltac:(assumption) ltac:(assumption) _ H); [apply shares_more; [exact SH|apply storable_id; assumption]|exact F|lia|intro Q; specialize (U Q); now inversion U]|] end.
      cbn [fst snd]. unfold noted_exprs. cbn [map]. rewrite <- app_assoc. apply dec_ret.
  Qed.
  Lemma clauses_die room base : forall l, Forall wf l -> Forall ExprSpec.storable l -> forall bs, wire_all wire_expr l bs ->
    forall i hl L, shares hl -> ~ fresh hl (map name_of_expr l) -> 8 * (base + (i + lenZ l)) <= room ->
      dies L (deser_clauses jen le otype room base (length l) i hl) bs.
  Proof.
    induction l as [|e l IH]; intros W S bs B i hl L SH F RM; inversion B; subst.
    - destruct (F (fresh_nil hl)).
    - cbn [map length deser_clauses] in *. inversion W; subst. inversion S; subst. rewrite !lenZ_cons in *. pose proof (lenZ_nonneg l).
      rewrite cell_ok by lia. cbn [bind]. destruct (in_dec Z.eq_dec (name_of_expr e) (map fst hl)) as [I|NI]; [apply dies_head; eapply slot_die; eassumption|].
      ub; [apply (slot_dec e false); try eassumption; discriminate|]. cbn [fst snd].
      match goal with H : wire_all _ l ?b |- _ => rewrite <- (app_nil_r b); apply dies_head; apply (IH ltac:(assumption) ltac:(assumption) _ H); [apply shares_more; [exact SH|apply storable_id; assumption]|now apply fresh_more|lia] end.
  Qed.
  (** *** Distributions *)
  Lemma dist_dec w d' u L hl i db : storable_wrapper flog dheap dimension w -> handled hl -> wire_dist (dheap (dw_dist w)) db -> outcome mem (dheap (dw_dist w)) (Ok d') ->
    ~ In (dw_dist w) (map fst hl) -> (u = true -> DistCodecSpec.no_data (dheap (dw_dist w))) ->
    dec u L (deser_distribution jen le flog mem hl (did i)) (set_dobj d' (mkObj (did i) (restored_ud (o_ud (dobj_of (dheap (dw_dist w)))))), hl ++ [(dw_dist w, did i)]) db.
  Proof.
    intros (M & S & N & _) SH W O NI U. destruct (dist_bytes _ db W) as (bb & ub & WB & WU & ->). pose proof (body_reads le flog mem _ M S bb _ WB O) as RD. cbn [had] in RD. destruct (storable_inv _ S) as (ID & LU & _).
    unfold deser_distribution. db; [apply (fuel_dec u _ (deser_body le flog mem)); intros fuel L' FL; apply RD; [intro V; specialize (U V); now inversion U|exact FL]|].
    rewrite bare_dobj. rewrite (oc_back mem _ d' O). cbn [o_id DistCodecSpec.back]. rewrite N in *. rewrite note_fresh; [|exact SH|exact ID|exact NI]. cbn [released_twice bind].
    rewrite <- (app_nil_r ub). db; [apply (user_data_dec u _ (ud_bytes (o_ud (dobj_of (dheap (dw_dist w)))))); auto; intro V; specialize (U V); now inversion U|].
    rewrite <- restored_ud_eq. replace (set_dobj (bare d') (mkObj (did i) (restored_ud (o_ud (dobj_of (dheap (dw_dist w))))))) with (set_dobj d' (mkObj (did i) (restored_ud (o_ud (dobj_of (dheap (dw_dist w))))))) by (destruct d'; reflexivity). apply dec_ret.
  Qed.
  Lemma dist_rej w e L hl i db : storable_wrapper flog dheap dimension w -> wire_dist (dheap (dw_dist w)) db -> outcome mem (dheap (dw_dist w)) (Err e) ->
    rej L (deser_distribution jen le flog mem hl (did i)) e db.
  Proof.
    intros (M & S & N & _) W O. destruct (dist_bytes _ db W) as (bb & ub & WB & WU & ->). pose proof (body_reads le flog mem _ M S bb _ WB O) as RD. cbn [had] in RD.
    unfold deser_distribution. apply rej_head. apply (fuel_rej L (deser_body le flog mem)). intros fuel L' FL. now apply RD.
  Qed.
  Lemma dist_die w d' L hl i db : storable_wrapper flog dheap dimension w -> handled hl -> wire_dist (dheap (dw_dist w)) db -> outcome mem (dheap (dw_dist w)) (Ok d') ->
    In (dw_dist w) (map fst hl) -> dies L (deser_distribution jen le flog mem hl (did i)) db.
  Proof.
    intros (M & S & N & _) SH W O I. destruct (dist_bytes _ db W) as (bb & ub & WB & WU & ->). pose proof (body_reads le flog mem _ M S bb _ WB O) as RD. cbn [had] in RD. destruct (storable_inv _ S) as (ID & LU & _).
    unfold deser_distribution. ub; [apply (fuel_dec false _ (deser_body le flog mem)); intros fuel L' FL; apply RD; [discriminate|exact FL]|].
    apply dies_now. intro s. rewrite bare_dobj. rewrite (oc_back mem _ d' O). cbn [o_id DistCodecSpec.back]. rewrite N in *. now rewrite note_again.
  Qed.
  Lemma indexes_dec u L room base np l : forall bs used, wire_all (fun i => leb128 (Z.of_nat i)) l bs -> Forall (fun i => Z.of_nat i < 2 ^ 64) l -> used + lenZ l <= np -> 8 * (base + np) <= room ->
    dec u L (deser_indexes room base np (length l) used) (map Z.of_nat l) bs.
  Proof.
    revert L. induction l as [|i l IH]; intros L bs used B F N RM; inversion B; subst; cbn [length deser_indexes map]; [apply dec_ret|].
    rewrite lenZ_cons in N. pose proof (lenZ_nonneg l). inversion F; subst. replace (np <=? used) with false by (symmetry; apply Z.leb_gt; lia). rewrite cell_ok by lia. cbn [bind].
    db; [apply decodes_dec, deser_uint_decodes; [apply okw64| |eassumption]; split; lia|]. match goal with H : wire_all _ l ?b |- _ => rewrite <- (app_nil_r b); db; [apply (IH _ _ (used + 1) H); [assumption|lia|exact RM]|] end. apply dec_ret.
  Qed.
  Definition small (w : dwrapper) : Prop := lenZ (dw_indexes w) < 2 ^ 64 /\ Forall (fun i => Z.of_nat i < 2 ^ 64) (dw_indexes w).
  Definition index_list (l : list dwrapper) : list (list Z) := map (fun w => map Z.of_nat (dw_indexes w)) l.
  Notation originals l := (map (fun w => dheap (dw_dist w)) l).
  Lemma dists_dec room np nc nd : 0 <= nc -> 0 <= np -> 8 * (2 * np + 2 * nc + 2 * nd) <= room -> forall l, Forall (storable_wrapper flog dheap dimension) l -> Forall small l ->
    forall ds', parts_had mem (originals l) ds' -> forall bs, wire_all (wire_wrapper dheap) l bs ->
    forall i used hl u L, handled hl -> fresh hl (map dw_dist l) -> Z.of_nat i + lenZ l <= nd -> used + lenZ (flat_map dw_indexes l) <= np ->
      (u = true -> Forall DistCodecSpec.no_data (originals l)) ->
      dec u L (deser_dists jen le flog mem did room np nc nd (length l) i used hl) (combine (redone did i (originals l) ds') (index_list l), noted_dists did hl i l) bs.
  Proof.
    intros NC NP RM l. induction l as [|w l IH]; intros F SM ds' P bs B i used hl u L SH FR NI NU U; inversion B as [|w0 l0 b0 bs0 (db & ln & ib & DB & LN & IB & EB) B0]; inversion P as [|d0 l0' d' ds0' O P0]; subst.
    - cbn. unfold noted_dists. cbn. rewrite app_nil_r. apply dec_ret.
    - cbn [map length deser_dists flat_map redone combine index_list] in *. fold (index_list l). inversion F as [|? ? SW FL]; subst. inversion SM as [|? ? [SW1 SW2] SML]; subst. rewrite lenZ_cons in NI. rewrite lenZ_app in NU. pose proof (lenZ_nonneg l). pose proof (lenZ_nonneg (dw_indexes w)). pose proof (lenZ_nonneg (flat_map dw_indexes l)).
      assert (IU : in_unsigned 64 (dw_dist w)) by (destruct SW as (_ & SD & <- & _); apply (storable_inv _ SD)).
      apply (fresh_cons _ _ _ (did i)) in FR. destruct FR as [NIN FR]. rewrite cell_ok by lia. cbn [bind]. rewrite <- !app_assoc.
      db; [apply dist_dec; try eassumption; intro Q; specialize (U Q); now inversion U|]. rewrite cell_ok by lia. cbn [bind fst snd].
      db; [apply decodes_dec, deser_uint_decodes; [apply okw64| |eassumption]; split; lia|]. replace (Z.to_nat (lenZ (dw_indexes w))) with (length (dw_indexes w)) by (unfold lenZ; now rewrite Nat2Z.id).
      db; [apply indexes_dec; [exact IB|exact SW2|lia|lia]|]. rewrite <- (app_nil_r bs0).
      db; [apply (IH FL SML _ P0 _ B0); [apply handled_app; [exact SH|repeat constructor; apply IU]|exact FR|lia|lia|intro Q; specialize (U Q); now inversion U]|].
      cbn [fst snd]. unfold noted_dists. cbn [map length seq combine]. rewrite <- app_assoc. apply dec_ret.
  Qed.
  Lemma dists_rej room np nc nd : 0 <= nc -> 0 <= np -> 8 * (2 * np + 2 * nc + 2 * nd) <= room -> forall l, Forall (storable_wrapper flog dheap dimension) l -> Forall small l ->
    forall e, parts_fail mem (originals l) e -> forall bs, wire_all (wire_wrapper dheap) l bs ->
    forall i used hl L, handled hl -> fresh hl (map dw_dist l) -> Z.of_nat i + lenZ l <= nd -> used + lenZ (flat_map dw_indexes l) <= np ->
      rej L (deser_dists jen le flog mem did room np nc nd (length l) i used hl) e bs.
  Proof.
    intros NC NP RM l. induction l as [|w l IH]; intros F SM e P bs B i used hl L SH FR NI NU; [inversion P|]. inversion B as [|w0 l0 b0 bs0 (db & ln & ib & DB & LN & IB & EB) B0]; subst.
    cbn [map length deser_dists flat_map] in *. inversion F as [|? ? SW FL]; subst. inversion SM as [|? ? [SW1 SW2] SML]; subst. rewrite lenZ_cons in NI. rewrite lenZ_app in NU. pose proof (lenZ_nonneg l). pose proof (lenZ_nonneg (dw_indexes w)). pose proof (lenZ_nonneg (flat_map dw_indexes l)).
    assert (IU : in_unsigned 64 (dw_dist w)) by (destruct SW as (_ & SD & <- & _); apply (storable_inv _ SD)).
    apply (fresh_cons _ _ _ (did i)) in FR. destruct FR as [NIN FR]. rewrite cell_ok by lia. cbn [bind]. rewrite <- !app_assoc. inversion P as [? ? ? O|? ? d' ? O P0]; subst.
    - apply rej_head. eapply dist_rej; eassumption.
    - rb; [apply (dist_dec w d' false); try eassumption; discriminate|]. rewrite cell_ok by lia. cbn [bind fst snd].
      rb; [apply (decodes_dec false), deser_uint_decodes; [apply okw64| |eassumption]; split; lia|]. replace (Z.to_nat (lenZ (dw_indexes w))) with (length (dw_indexes w)) by (unfold lenZ; now rewrite Nat2Z.id).
      rb; [apply (indexes_dec false); [exact IB|exact SW2|lia|lia]|]. rewrite <- (app_nil_r bs0). apply rej_head.
      apply (IH FL SML _ P0 _ B0); [apply handled_app; [exact SH|repeat constructor; apply IU]|exact FR|lia|lia].
  Qed.
  Lemma dists_die room np nc nd : 0 <= nc -> 0 <= np -> 8 * (2 * np + 2 * nc + 2 * nd) <= room -> forall l, Forall (storable_wrapper flog dheap dimension) l -> Forall small l ->
    forall ds', parts_had mem (originals l) ds' -> forall bs, wire_all (wire_wrapper dheap) l bs ->
    forall i used hl L, handled hl -> ~ fresh hl (map dw_dist l) -> Z.of_nat i + lenZ l <= nd -> used + lenZ (flat_map dw_indexes l) <= np ->
      dies L (deser_dists jen le flog mem did room np nc nd (length l) i used hl) bs.
  Proof.
    intros NC NP RM l. induction l as [|w l IH]; intros F SM ds' P bs B i used hl L SH FR NI NU; [destruct (FR (fresh_nil hl))|]. inversion B as [|w0 l0 b0 bs0 (db & ln & ib & DB & LN & IB & EB) B0]; inversion P as [|d0 l0' d' ds0' O P0]; subst.
    cbn [map length deser_dists flat_map] in *. inversion F as [|? ? SW FL]; subst. inversion SM as [|? ? [SW1 SW2] SML]; subst. rewrite lenZ_cons in NI. rewrite lenZ_app in NU. pose proof (lenZ_nonneg l). pose proof (lenZ_nonneg (dw_indexes w)). pose proof (lenZ_nonneg (flat_map dw_indexes l)).
    assert (IU : in_unsigned 64 (dw_dist w)) by (destruct SW as (_ & SD & <- & _); apply (storable_inv _ SD)).
    rewrite cell_ok by lia. cbn [bind]. rewrite <- !app_assoc. destruct (in_dec Z.eq_dec (dw_dist w) (map fst hl)) as [I|NIN]; [apply dies_head; eapply dist_die; eassumption|].
    ub; [apply (dist_dec w d' false); try eassumption; discriminate|]. rewrite cell_ok by lia. cbn [bind fst snd].
    ub; [apply (decodes_dec false), deser_uint_decodes; [apply okw64| |eassumption]; split; lia|]. replace (Z.to_nat (lenZ (dw_indexes w))) with (length (dw_indexes w)) by (unfold lenZ; now rewrite Nat2Z.id).
    ub; [apply (indexes_dec false); [exact IB|exact SW2|lia|lia]|]. rewrite <- (app_nil_r bs0). apply dies_head.
    apply (IH FL SML _ P0 _ B0); [apply handled_app; [exact SH|repeat constructor; apply IU]|now apply fresh_more|lia|lia].
  Qed.
End Reading.
