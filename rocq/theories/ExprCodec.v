(** Proofs about the serialised form of expressions. *)
From Coq Require Import ZArith List Bool Lia Arith.
From Verif Require Import Base Datum CodecModel CodecSpec CodecProofs MapModel ParamModel ParamCodec.
From Verif Require Import ExprModel ExprSpec ExprProofs ExprLemmas.
Import ListNotations.
Open Scope Z_scope.

Lemma wire_expr_exists known e : wf_expr known e -> storable e -> exists bs, wire_expr e bs.
Proof.
  induction e as [o d|o h|o t nodes IH] using expr_rect'; intros W S; inversion W; inversion S; subst.
  - destruct (leb128_exists (o_id o)) as [lh L]; [unfold in_unsigned in *; lia|].
    destruct (wire_datum_exists (d_val d)) as [b B]; [assumption| |].
    { destruct (d_val d) as [| | | |[s|]| | |]; cbn in *; auto. }
    destruct (leb128_exists (lenZ (ud_of (ELit o d)))) as [u U]; [apply lenZ_nonneg|].
    eexists. eapply we_lit; eauto. exists u. split; [exact U|reflexivity].
  - destruct (leb128_exists (o_id o)) as [lh L]; [unfold in_unsigned in *; lia|].
    destruct (leb128_exists h) as [b B]; [unfold in_unsigned in *; lia|].
    destruct (leb128_exists (lenZ (ud_of (EVar o h)))) as [u U]; [apply lenZ_nonneg|].
    eexists. eapply we_var; eauto. exists u. split; [exact U|reflexivity].
  - destruct (leb128_exists (o_id o)) as [lh L]; [unfold in_unsigned in *; lia|].
    destruct (leb128_exists (lenZ nodes)) as [ln N]; [apply lenZ_nonneg|].
    destruct (leb128_exists (lenZ (ud_of (EOp o t nodes)))) as [u U]; [apply lenZ_nonneg|].
    assert (B : exists b, wire_exprs nodes b).
    { match goal with H : Forall (wf_expr known) nodes, H' : Forall storable nodes |- _ => revert IH H H' end. clear.
      induction 1 as [|x l X F IH]; intros A B; [exists []; constructor|]. inversion A; inversion B; subst.
      destruct X as [a Ha]; auto. destruct IH as [b Hb]; auto. exists (a ++ b). now constructor. }
    destruct B as [b B]. eexists. eapply we_op; eauto. exists u. split; [exact U|reflexivity].
Qed.

Lemma takes_small t n : takes t n -> 0 <= t < 128. Proof. unfold takes. lia. Qed.
Lemma expr_size_encodes le known e : wf_expr known e -> storable e -> forall bs, wire_expr e bs ->
  encodes (ser_expr le e) bs /\ size_expr e = Ok (lenZ bs).
Proof.
  assert (U : forall ud, ud_bytes ud = match ud with Some b => b | None => [] end) by reflexivity.
  induction e as [o d|o h|o t nodes IH] using expr_rect'; intros W S bs B; inversion W; inversion S; inversion B; subst;
    cbn [ser_expr size_expr xobj_of xtype xnodes].
  - unfold ud_of in *; cbn [xobj_of] in *. rewrite <- U in *. split.
    + apply encodes_seq; [now apply ser_object_internal_encodes|]. apply encodes_seq; [now apply ser_enum_small|].
      apply encodes_seq; [apply ser_uint_encodes; auto using okw64; [cbn; lia|now constructor]|].
      apply encodes_seq; [now apply ser_datum_encodes|]. now apply ser_user_data_encodes.
    + rewrite (size_datum_ok d body), (size_user_data_ok (o_ud o) u), (size_object_internal_ok 3 _ lh), size_enum_small by (auto; unfold XLITERAL; lia).
      cbn [bind]. f_equal. rewrite !lenZ_app. change (size_size (@lenZ expr [])) with 1. change (lenZ [18]) with 1. change (lenZ [19]) with 1. change (lenZ [0]) with 1. lia.
  - unfold ud_of in *; cbn [xobj_of] in *. rewrite <- U in *. split.
    + apply encodes_seq; [now apply ser_object_internal_encodes|]. apply encodes_seq; [now apply ser_enum_small|].
      apply encodes_seq; [apply ser_uint_encodes; auto using okw64; [cbn; lia|now constructor]|].
      apply encodes_seq; [apply ser_uint_encodes; auto using okw64|]. now apply ser_user_data_encodes.
    + unfold size_object. rewrite (size_uint_ok 64 h body), (size_user_data_ok (o_ud o) u), (size_object_internal_ok 3 _ lh), size_enum_small by (auto using okw64; unfold XVARIABLE; lia).
      cbn [bind]. f_equal. rewrite !lenZ_app. change (size_size (@lenZ expr [])) with 1. change (lenZ [18]) with 1. change (lenZ [19]) with 1. change (lenZ [0]) with 1. lia.
  - unfold ud_of in *; cbn [xobj_of] in *. rewrite <- U in *. pose proof (lenZ_nonneg nodes) as N0.
    match goal with H : takes _ _ |- _ => pose proof (takes_small _ _ H) as T end.
    set (go := fix go (l : list expr) (s : wstate) : res wstate := match l with [] => Ok s | n :: l' => do s <- ser_expr le n s; go l' s end).
    set (gs := fix go (l : list expr) : res Z := match l with [] => Ok 0 | n :: l' => do a <- size_expr n; do b <- go l'; Ok (a + b) end).
    assert (G : encodes (go nodes) body /\ gs nodes = Ok (lenZ body)).
    { clear B. match goal with H : Forall (wf_expr known) nodes, H1 : Forall storable nodes, H2 : wire_exprs nodes body |- _ =>
        revert IH H H1 body H2 end. clear. induction 1 as [|x l X F IH]; intros A B body C; inversion A; inversion B; inversion C; subst.
      - split; [apply encodes_nil|reflexivity].
      - destruct (X H1 H5 a H9) as [E1 E2]. destruct (IH H2 H6 b H11) as [F1 F2]. split.
        + exact (encodes_seq _ _ _ _ E1 F1).
        + cbn [gs]. rewrite E2. cbn [bind]. change ((do b0 <- gs l; Ok (lenZ a + b0)) = Ok (lenZ (a ++ b))). rewrite F2. cbn [bind]. now rewrite lenZ_app. }
    destruct G as [G1 G2]. split.
    + apply encodes_seq; [now apply ser_object_internal_encodes|]. apply encodes_seq; [now apply ser_enum_small|].
      apply encodes_seq; [apply ser_uint_encodes; auto using okw64|].
      apply (encodes_seq (go nodes)); [exact G1|]. now apply ser_user_data_encodes.
    + rewrite G2. rewrite (size_user_data_ok (o_ud o) u), (size_object_internal_ok 3 _ lh), size_enum_small by (auto; lia).
      cbn [bind]. f_equal. rewrite !lenZ_app. unfold size_size. rewrite (size_uint_ok 64 (lenZ nodes) ln); auto using okw64. change (lenZ [t]) with 1. lia.
Qed.

(** ** Decoding within a budget of [L] bytes; truncation only if [u] *)
Definition dec {A} (u : bool) (L : nat) (de : rstate -> res (A * rstate)) (a : A) (bs : list Z) : Prop :=
  ((length bs <= L)%nat -> forall tl n, lenZ bs <= n <= lenZ (bs ++ tl) -> n < 2 ^ 64 ->
     de (mkR (bs ++ tl) n) = Ok (a, mkR tl (n - lenZ bs))) /\
  (u = true -> forall p q tl, bs = p ++ q -> q <> [] -> lenZ p < 2 ^ 64 -> (length p <= L)%nat ->
     de (mkR (p ++ tl) (lenZ p)) = Err ERR_NOT_ENOUGH_DATA).
Lemma decodes_dec {A} u L (de : rstate -> res (A * rstate)) a bs : decodes de a bs -> dec u L de a bs.
Proof. intros [H P]. split; [intros _; exact H|intros _ p q tl E Q N _; now apply (P p q tl)]. Qed.
Lemma dec_bind {A B} u L (f : rstate -> res (A * rstate)) (k : A * rstate -> res (B * rstate)) a b bs cs :
  dec u L f a bs -> ((length bs <= L)%nat -> dec u (L - length bs) (fun s => k (a, s)) b cs) ->
  dec u L (fun s => bind (f s) k) b (bs ++ cs).
Proof.
  intros [F FP] K. split.
  - intros N tl n R R'. rewrite app_length in N. rewrite lenZ_app in R. rewrite <- app_assoc in *. pose proof (lenZ_nonneg cs). pose proof (lenZ_nonneg bs).
    rewrite F by (try lia; exact R'). cbn [bind]. destruct K as [K _]; [lia|]. rewrite K; [|lia| |lia].
    + rewrite lenZ_app. do 3 f_equal. lia.
    + rewrite lenZ_app in R. lia.
  - intros U p q tl E Q N M. destruct (app_eq_app bs cs p q E) as (l & [[E1 E2]|[E1 E2]]); subst bs || subst p; subst q || subst cs.
    + destruct l as [|x l].
      * rewrite app_nil_r in *. destruct K as [_ K]; [lia|]. cbn [app] in *.
        rewrite F; [|lia| |exact N].
        -- cbn [bind]. specialize (K U [] cs tl). cbn in K. rewrite Z.sub_diag. apply K; auto; lia.
        -- rewrite lenZ_app. pose proof (lenZ_nonneg tl). lia.
      * rewrite (FP U p (x :: l) tl); [reflexivity|reflexivity|discriminate|exact N|exact M].
    + rewrite app_length in M. rewrite lenZ_app in *. pose proof (lenZ_nonneg bs). pose proof (lenZ_nonneg l). rewrite <- app_assoc.
      rewrite F; [|lia| |lia].
      * cbn [bind]. destruct K as [_ K]; [lia|]. replace (lenZ bs + lenZ l - lenZ bs) with (lenZ l) by lia. apply (K U l q tl); auto; lia.
      * rewrite !lenZ_app. pose proof (lenZ_nonneg tl). lia.
Qed.
Lemma dec_ret {A} u L (a : A) : dec u L (fun s => Ok (a, s)) a [].
Proof. apply decodes_dec, decodes_ret. Qed.
Lemma dec_peek {A} u L t (g : Z -> rstate -> res (A * rstate)) a bs : 0 <= t < 128 ->
  dec u L (g t) a (t :: bs) -> dec u L (fun s => do x <- peek_enum s; g x s) a (t :: bs).
Proof.
  intros Ht [H P]. destruct (deser_enum_small t Ht) as [D1 D2]. split.
  - intros Hl tl n Hn Hn2. unfold peek_enum. cbn [app] in *. pose proof (lenZ_nonneg bs).
    assert (L1 : lenZ [t] = 1) by reflexivity.
    rewrite (D1 (bs ++ tl) n); [|split; [rewrite lenZ_cons in Hn; lia|apply Hn]|exact Hn2].
    cbn [bind]. now apply H.
  - intros U p q tl E Q N M. destruct p as [|x p].
    + unfold peek_enum. rewrite (D2 [] [t] tl); [reflexivity|reflexivity|discriminate|cbn; lia].
    + cbn in E. injection E as <- ->. unfold peek_enum. cbn [app] in *.
      rewrite (D1 (p ++ tl) (lenZ (t :: p))); [cbn [bind]; now apply (P U (t :: p) q tl)| |exact N].
      rewrite !lenZ_cons, lenZ_app. change (lenZ (@nil Z)) with 0. pose proof (lenZ_nonneg p). pose proof (lenZ_nonneg tl). lia.
Qed.
Lemma user_data_dec u L b bs : lenZ b < 2 ^ 64 -> wire_blob b bs -> (u = true -> b = []) -> dec u L deser_user_data b bs.
Proof.
  intros N W U. split.
  - intros _ tl n R R'. now apply deser_user_data_ok.
  - intro T. rewrite (U T) in *. destruct W as (l & Hl & ->). rewrite app_nil_r. intros p q tl E Q M _.
    destruct (deser_uint_decodes 64 0 l okw64 ltac:(cbn; lia) Hl) as [_ D]. unfold deser_user_data, deser_size.
    now rewrite (D p q tl).
Qed.

Section Read.
  Variables (le : bool) (jen : list Z -> Z) (otype : Z -> option Z) (hm : option mstate) (f : Z -> Z).
  Notation resolves := (resolves jen otype hm f).
  Ltac db := eapply dec_bind; [|intros _; cbv beta iota].
  Lemma leaf_dec u L t : 0 <= t < 128 -> dec u L deser_leaf_data tt ([t] ++ [0]).
  Proof.
    intro T. db; [apply decodes_dec; now apply deser_enum_small|].
    rewrite <- (app_nil_r [0]). db; [apply decodes_dec; apply (deser_uint_decodes 64 0 [0]); auto using okw64; [cbn; lia|now constructor]|].
    apply dec_ret.
  Qed.
  Lemma expr_dec known e : wf_expr known e -> storable e -> (forall h, occurs h e -> resolves h) -> forall bs, wire_expr e bs ->
    forall u, (u = true -> no_user_data e) -> forall fuel L, (L < fuel)%nat ->
    dec u L (deser_expr le jen otype hm fuel) (restored f e) bs.
  Proof.
    induction e as [o d|o h|o t nodes IH] using expr_rect'; intros W S R bs B u U fuel L F; inversion W; inversion S; inversion B; subst;
      (destruct fuel as [|fuel]; [lia|]); cbn [deser_expr restored].
    - db; [apply decodes_dec; apply (deser_object_internal_decodes 3 (o_id o)); [lia|assumption|assumption]|]. cbn [fst snd Z.eqb Pos.eqb negb refute bind].
      change (?a ++ ?b) with (18 :: [0] ++ body ++ u0). apply (dec_peek u _ 18 (fun dtype s => _)); [lia|].
      cbn [Z.eqb Pos.eqb XLITERAL]. change (18 :: [0] ++ body ++ u0) with (([18] ++ [0]) ++ body ++ u0). rewrite app_assoc.
      apply (dec_bind u _ (deser_literal le (o_id o)) _ (ELit (mkObj (o_id o) None) d)).
      + unfold deser_literal. db; [apply leaf_dec; lia|]. rewrite <- (app_nil_r body).
        db; [apply decodes_dec; apply deser_datum_decodes; eassumption|].
        unfold create_literal. cbn [d_val].
        replace (literal_type (mkDatum (d_val d) (wire_flags (d_val d)))) with true.
        * cbn [negb refute bind]. destruct d as [v fl]. cbn in *. subst fl. apply dec_ret.
        * symmetry. apply (literal_type_iff (mkDatum (d_val d) _)); assumption.
      + intros _. cbv beta iota. rewrite <- (app_nil_r u0). db.
        * apply (user_data_dec u _ (ud_of (ELit o d))); auto. intro T. specialize (U T). now inversion U.
        * unfold ud_of, restored_obj, with_ud. cbn. destruct (o_ud o) as [[|]|]; apply dec_ret.
    - db; [apply decodes_dec; apply (deser_object_internal_decodes 3 (o_id o)); [lia|assumption|assumption]|]. cbn [fst snd Z.eqb Pos.eqb negb refute bind].
      change (?a ++ ?b) with (19 :: [0] ++ body ++ u0). apply (dec_peek u _ 19 (fun dtype s => _)); [lia|].
      cbn [Z.eqb Pos.eqb XLITERAL XVARIABLE]. change (19 :: [0] ++ body ++ u0) with (([19] ++ [0]) ++ body ++ u0). rewrite app_assoc.
      destruct (R h (occ_var h o)) as (m & -> & R1 & R2).
      apply (dec_bind u _ (deser_variable jen otype (Some m) (o_id o)) _ (EVar (mkObj (o_id o) None) (f h))).
      + unfold deser_variable. db; [apply leaf_dec; lia|]. rewrite <- (app_nil_r body).
        db; [apply decodes_dec; apply deser_uint_decodes; eauto using okw64|].
        rewrite R1. unfold create_variable. rewrite R2. apply dec_ret.
      + intros _. cbv beta iota. rewrite <- (app_nil_r u0). db.
        * apply (user_data_dec u _ (ud_of (EVar o h))); auto. intro T. specialize (U T). now inversion U.
        * unfold ud_of, restored_obj, with_ud. cbn. destruct (o_ud o) as [[|]|]; apply dec_ret.
    - match goal with H : takes t _ |- _ => rename H into T end. pose proof (takes_small _ _ T) as Ts.
      eapply dec_bind; [apply decodes_dec; apply (deser_object_internal_decodes 3 (o_id o)); [lia|assumption|assumption]|]. intro Lh. cbv beta iota. cbn [fst snd Z.eqb Pos.eqb negb refute bind].
      change (?a ++ ?b) with (t :: ln ++ body ++ u0). apply (dec_peek u _ t (fun dtype s => _)); [lia|].
      assert (T1 : t =? XLITERAL = false) by (apply Z.eqb_neq; unfold takes, XLITERAL in *; lia).
      assert (T2 : t =? XVARIABLE = false) by (apply Z.eqb_neq; unfold takes, XVARIABLE in *; lia).
      assert (T3 : (t <? XOR) || (XTYPE_MAX <=? t) = false).
      { apply orb_false_intro; [apply Z.ltb_ge|apply Z.leb_gt]; unfold takes, XOR, XTYPE_MAX in *; lia. }
      rewrite T1, T2, T3. cbn [refute bind].
      change (t :: ln ++ body ++ u0) with ([t] ++ ln ++ body ++ u0). rewrite (app_assoc ln), app_assoc.
      eapply (dec_bind u _ _ _ (EOp (mkObj (o_id o) None) t (map (restored f) nodes))).
      + db; [apply decodes_dec; now apply deser_enum_small|].
        db; [apply decodes_dec; apply (deser_uint_decodes 64 (lenZ nodes) ln); auto using okw64; pose proof (lenZ_nonneg nodes); lia|].
        rewrite <- (app_nil_r body). eapply (dec_bind u _ _ _ (map (restored f) nodes)).
        * unfold lenZ. rewrite Nat2Z.id.
          match goal with |- dec u ?l _ _ _ => assert (Lf : (l < fuel)%nat) by (cbn [length] in *; lia); revert Lf; generalize l end.
          match goal with H : Forall (wf_expr known) nodes, H1 : Forall storable nodes, H2 : wire_exprs nodes body |- _ =>
            revert IH H H1 H2 end.
          assert (R' : forall n, In n nodes -> forall h, occurs h n -> resolves h) by (intros n Hn h Hh; apply R; now apply (occ_op h o t nodes n)).
          assert (U' : u = true -> Forall no_user_data nodes) by (intro V; specialize (U V); now inversion U).
          revert R' U'. clear. intros R' U' IH A B C. revert A B R' U' body C.
          induction IH as [|x l X F IH]; intros A B R' U' body C k Lf; inversion A; inversion B; inversion C; subst; cbn [deser_nodes length map].
          -- apply dec_ret.
          -- eapply dec_bind; [apply (X H1 H5); [apply R'; now left|eassumption|intro V; specialize (U' V); now inversion U'|exact Lf]|].
             intros _. cbv beta iota.
             rewrite <- (app_nil_r b). db; [apply IH; auto; [intros n Hn; apply R'; now right|intro V; specialize (U' V); now inversion U'|lia]|]. apply dec_ret.
        * intros _. cbv beta iota. unfold lenZ. rewrite map_length. destruct (arity_cases t (length nodes)) as [[_ ->]|[Q _]]; [|now exfalso].
          apply dec_ret.
      + intros _. cbv beta iota. rewrite <- (app_nil_r u0). db.
        * apply (user_data_dec u _ (ud_of (EOp o t nodes))); auto. intro V. specialize (U V). now inversion U.
        * unfold ud_of, restored_obj, with_ud. cbn. destruct (o_ud o) as [[|]|]; apply dec_ret.
  Qed.
  Lemma expression_reads known e bs : wf_expr known e -> storable e -> (forall h, occurs h e -> resolves h) -> wire_expr e bs ->
    (forall tl n, lenZ bs <= n <= lenZ (bs ++ tl) -> n < 2 ^ 64 ->
      deser_expression le jen otype hm (mkR (bs ++ tl) n) = Ok (restored f e, mkR tl (n - lenZ bs))) /\
    (no_user_data e -> decodes (deser_expression le jen otype hm) (restored f e) bs).
  Proof.
    intros W S R B.
    assert (A : forall tl n, lenZ bs <= n <= lenZ (bs ++ tl) -> n < 2 ^ 64 ->
      deser_expression le jen otype hm (mkR (bs ++ tl) n) = Ok (restored f e, mkR tl (n - lenZ bs))).
    { intros tl n N N'. unfold deser_expression. cbn [r_mem].
      apply (expr_dec known e W S R bs B false ltac:(discriminate) (Datatypes.S (length (bs ++ tl))) (length bs)); auto. rewrite app_length. lia. }
    split; [exact A|]. intro U. split; [exact A|]. intros p q tl E Q N. unfold deser_expression. cbn [r_mem].
    apply (expr_dec known e W S R bs B true (fun _ => U) (Datatypes.S (length (p ++ tl))) (length p)) with (q := q); auto. rewrite app_length. lia.
  Qed.
End Read.
