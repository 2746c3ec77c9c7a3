(** Proofs about expression operators. *)
From Coq Require Import ZArith List Bool Lia Arith.
From Verif Require Import Base Datum CodecModel CodecSpec FloatModel FloatSpec FloatProofs FloatRound CmpModel CmpSpec CmpProofs.
From Verif Require Import MapSpec ParamModel ParamSpec ParamProofs ContextModel ContextSpec ExprModel ExprSpec.
Import ListNotations.
Open Scope Z_scope.

Lemma expr_rect' (P : expr -> Prop) :
  (forall o d, P (ELit o d)) -> (forall o h, P (EVar o h)) ->
  (forall o t nodes, Forall P nodes -> P (EOp o t nodes)) -> forall e, P e.
Proof.
  intros HL HV HO. fix IH 1. intros [o d|o h|o t nodes]; [apply HL|apply HV|]. apply HO.
  induction nodes as [|n nodes IHn]; constructor; [apply IH|exact IHn].
Qed.

Lemma inactive_iff d : wf_datum d -> (is_inactive d = true <-> d_val d = VInactive).
Proof.
  unfold wf_datum, is_inactive. destruct (d_val d); cbn; intros W; try (split; [discriminate|discriminate]); try tauto.
  unfold TYPE_INACTIVE. destruct (Z.eqb_spec t 5); [lia|]. split; discriminate.
Qed.
Lemma inactive_false d : wf_datum d -> (is_inactive d = false <-> d_val d <> VInactive).
Proof. intro W. rewrite <- (inactive_iff d W). now destruct (is_inactive d). Qed.
Lemma bool_iff d : wf_datum d -> (is_bool d = true <-> exists i, d_val d = VBool i).
Proof.
  unfold wf_datum, is_bool. destruct (d_val d) eqn:E; cbn; intros W; try (split; [discriminate|intros [? ?]; discriminate]).
  - split; eauto.
  - unfold TYPE_BOOL. destruct (Z.eqb_spec t 3); [lia|]. split; [discriminate|intros [? ?]; discriminate].
Qed.

Ltac unk t := repeat match goal with |- context[t =? ?k] => destruct (Z.eqb_spec t k); [unfold TYPE_BOOL, TYPE_INACTIVE in *; lia|] end.
Lemma or_spec l r : (forall x, l = Ok x -> wf_datum x) -> (forall x, r = Ok x -> wf_datum x) ->
  binary l r or_means (or_eval l r).
Proof.
  intros Wl Wr. destruct l as [x| |]; [|reflexivity..]. destruct r as [y| |]; [|reflexivity..].
  specialize (Wl x eq_refl). specialize (Wr y eq_refl).
  unfold binary, or_means, or_eval, bind, refute, is_bool, is_inactive, truth, tri_of.
  unfold wf_datum in *. destruct (d_val x) eqn:Ex, (d_val y) eqn:Ey; cbn in Wl, Wr |- *;
    try (unk t); try (unk t0); try reflexivity;
    repeat match goal with |- context[?i =? 0] => destruct (i =? 0) end; reflexivity.
Qed.
Lemma and_spec l r : (forall x, l = Ok x -> wf_datum x) -> (forall x, r = Ok x -> wf_datum x) ->
  binary l r and_means (and_eval l r).
Proof.
  intros Wl Wr. destruct l as [x| |]; [|reflexivity..]. destruct r as [y| |]; [|reflexivity..].
  specialize (Wl x eq_refl). specialize (Wr y eq_refl).
  unfold binary, and_means, and_eval, bind, refute, is_bool, is_inactive, truth, tri_of.
  unfold wf_datum in *. destruct (d_val x) eqn:Ex, (d_val y) eqn:Ey; cbn in Wl, Wr |- *;
    try (unk t); try (unk t0); try reflexivity;
    repeat match goal with |- context[?i =? 0] => destruct (i =? 0) end; reflexivity.
Qed.
Lemma not_spec n : (forall x, n = Ok x -> wf_datum x) -> unary n not_means (not_eval n).
Proof.
  intros W. destruct n as [x| |]; [|reflexivity..]. specialize (W x eq_refl).
  unfold unary, not_means, not_eval, bind, refute, is_bool, is_inactive, truth, tri_of.
  unfold wf_datum in *. destruct (d_val x) eqn:Ex; cbn in W |- *; try (unk t); try reflexivity.
  now destruct (i =? 0).
Qed.

(** comparisons *)
Lemma test_equal_spec x y : wf_datum x -> wf_datum y ->
  (snd (test_equal x y) = true <-> same (d_val x) (d_val y)) /\
  (fst (test_equal x y) = true <-> comparable (d_val x) (d_val y)).
Proof.
  unfold wf_datum, test_equal, same, comparable. intros Wx Wy.
  destruct (d_val x) as [|i|f|i|s| |h|t i] eqn:Ex, (d_val y) as [|j|g|j|s'| |h'|t' j] eqn:Ey; cbn [type_of wf_value] in *;
    try match goal with |- context[?a =? ?b] => destruct (Z.eqb_spec a b); try discriminate;
      try (unfold TYPE_NONE, TYPE_INT, TYPE_FLOAT, TYPE_BOOL, TYPE_STRING, TYPE_INACTIVE, TYPE_OBJECT in *; lia) end; cbn [fst snd];
    try (split; split; [discriminate|discriminate|discriminate|intros [C|C]; [congruence|contradiction]]);
    try (split; split; auto; fail).
  - cbn. split; [|split; auto]. rewrite Z.eqb_eq. split; [|congruence]. intro E.
    f_equal. now apply wrap64_inj.
  - split; [apply feq_key|tauto].
  - split; [|tauto]. rewrite feq_key. unfold keq. destruct (fkey f), (fkey (f_of_int j)); intuition.
  - cbn. split; [|split; auto]. rewrite Z.eqb_eq. split; congruence.
  - cbn. split; [|split; auto]. rewrite Z.eqb_eq. split; [|congruence]. intro E.
    f_equal. apply wrap64_inj; auto; now apply bool_signed.
  - split; [|split; auto]. destruct (sgn_presents _ _ _ (cmp_strings_spec s s')) as (_ & _ & H). apply H in e.
    destruct s, s'; cbn in e |- *; split; congruence.
  - split; [|split; auto]. destruct (sgn_presents _ _ _ (cmp_strings_spec s s')) as (_ & _ & H).
    split; [discriminate|]. intro E. exfalso. apply n, H. injection E as ->. now destruct s'.
  - cbn. split; [|split; auto]. rewrite Z.eqb_eq. split; congruence.
  - subst. split; [|split; auto]. cbn. rewrite Z.eqb_eq. split; [|congruence]. intro E. f_equal.
    apply wrap64_inj; tauto.
  - split; split; try discriminate; try congruence. intros [C|C]; [congruence|easy].
Qed.

Section Heap.
  Variable jen : list Z -> Z.
  Lemma check_created p v : created jen p -> cat_kind (p_type p) -> wf_datum v ->
    (check_value jen p v = true <-> In (d_val v) (map d_val (p_values p))).
  Proof.
    intros C K W. destruct C as [nm t lo up q def p' N M1 M2 M3 M4 H | t nm vals idx p' K' N W' Hi H | nm N].
    - destruct (check_numerical jen _ _ _ _ _ _ _ H) as (_ & -> & _). cbn in K. unfold cat_kind, PNUMERICAL, PCATEGORICAL, PORDINAL, PDISCRETE in K. lia.
    - destruct (check_categorical jen t nm vals idx p' K' W' Hi H) as (T' & _ & V & _ & D). destruct (D v W) as [D1 _].
      rewrite V, map_map. cbn. exact D1.
    - destruct K as [K|[K|K]]; discriminate K.
  Qed.
  Definition ok_param (p : option param) : Prop := forall q, p = Some q -> created jen q.
  Lemma number_iff v : wf_datum v ->
    (negb (type_of (d_val v) =? TYPE_INT) && negb (type_of (d_val v) =? TYPE_FLOAT) = false <-> exists i, d_val v = VInt i \/ d_val v = VFloat i).
  Proof.
    unfold wf_datum. intro W. destruct (d_val v); cbn in *; try (split; [discriminate|intros [? [?|?]]; discriminate]); try (split; eauto; fail).
    unfold TYPE_INT, TYPE_FLOAT. destruct (Z.eqb_spec t 1); [lia|]. destruct (Z.eqb_spec t 2); [lia|]. cbn.
    split; [discriminate|intros [? [?|?]]; discriminate].
  Qed.
  Lemma check_parameters_spec p v : ok_param p -> wf_datum v ->
    (check_parameters jen p v = Ok tt /\ admitted p (d_val v)) \/
    (check_parameters jen p v = Err ERR_INVALID_VALUE /\ ~ admitted p (d_val v)).
  Proof.
    intros O W. destruct p as [p|]; [|left; split; reflexivity]. specialize (O p eq_refl). cbn [check_parameters admitted].
    destruct ((p_type p =? PORDINAL) || (p_type p =? PCATEGORICAL)) eqn:K.
    - assert (CK : cat_kind (p_type p)).
      { apply orb_prop in K. destruct K as [K|K]; apply Z.eqb_eq in K; unfold cat_kind; auto. }
      pose proof (check_created p v O CK W) as C. destruct (check_value jen p v); cbn.
      + left. split; [reflexivity|]. now apply C.
      + right. split; [reflexivity|]. intro X. apply C in X. discriminate.
    - destruct ((p_type p =? PNUMERICAL) || (p_type p =? PDISCRETE)); [|left; split; [reflexivity|exact Logic.I]].
      pose proof (number_iff v W) as N. destruct (negb (type_of (d_val v) =? TYPE_INT) && negb (type_of (d_val v) =? TYPE_FLOAT)); cbn.
      + right. split; [reflexivity|]. intro X. apply N in X. discriminate.
      + left. split; [reflexivity|]. now apply N.
  Qed.

  Lemma equal_spec neg pl pr l r : ok_param pl -> ok_param pr ->
    (forall x, l = Ok x -> wf_datum x) -> (forall x, r = Ok x -> wf_datum x) ->
    binary l r (fun x y o => equal_means pl pr x y o (if neg : bool then ~ same (d_val x) (d_val y) else same (d_val x) (d_val y)))
      (equal_eval jen neg pl pr l r).
  Proof.
    intros Ol Or Wl Wr. destruct l as [x| |]; [|reflexivity..]. destruct r as [y| |]; [|reflexivity..].
    specialize (Wl x eq_refl). specialize (Wr y eq_refl). unfold binary, equal_eval. cbn [bind].
    destruct (is_inactive x) eqn:Ix. { apply em_inactive. left. now apply inactive_iff. }
    destruct (is_inactive y) eqn:Iy. { apply em_inactive. right. now apply inactive_iff. }
    apply inactive_false in Ix, Iy; auto.
    destruct (check_parameters_spec pl y Ol Wr) as [[-> Al]|[-> Al]]; cbn [bind]; [|now apply em_refused; auto; tauto].
    destruct (check_parameters_spec pr x Or Wl) as [[-> Ar]|[-> Ar]]; cbn [bind]; [|now apply em_refused; auto; tauto].
    destruct (test_equal_spec x y Wl Wr) as [E V]. destruct (test_equal x y) as [valid eq]. cbn [fst snd] in *.
    assert (A : pl <> None \/ pr <> None \/ comparable (d_val x) (d_val y) ->
      equal_means pl pr x y (Ok (bool_of (if neg then negb eq else eq)))
        (if neg then ~ same (d_val x) (d_val y) else same (d_val x) (d_val y))).
    { intro H. set (b := if neg then negb eq else eq). assert (bool_of b = flag b) as -> by now destruct b.
      apply em_answer; auto. unfold b. destruct neg; [|exact E]. rewrite <- E. destruct eq; cbn; split; congruence. }
    destruct pl as [p|]; [cbn; apply A; left; discriminate|].
    destruct pr as [p|]; [cbn; apply A; right; left; discriminate|].
    destruct valid; cbn [negb refute bind].
    - apply A. right. right. now apply V.
    - apply em_uncomparable; auto. intro C. apply V in C. discriminate.
  Qed.

  Lemma cmp_generic_spec x y : wf_datum x -> wf_datum y ->
    (ordered_type (d_val x) (d_val y) /\ exists c, cmp_generic x y = Ok c /\
       (c < 0 <-> below (d_val x) (d_val y)) /\ (c > 0 <-> below (d_val y) (d_val x))) \/
    (~ ordered_type (d_val x) (d_val y) /\ cmp_generic x y = Err ERR_INVALID_VALUE).
  Proof.
    intros Wx Wy. unfold cmp_generic, ordered_type, below.
    destruct (d_val x) as [|i|f|i|s| |h|t i] eqn:Ex, (d_val y) as [|j|g|j|s'| |h'|t' j] eqn:Ey; try (right; split; [tauto|reflexivity]).
    all: left; split; [exact Logic.I|]; eexists; split; [reflexivity|].
    - unfold cmp3. destruct (Z.ltb_spec i j); [lia|]. destruct (Z.gtb_spec i j); lia.
    - unfold cmp3, fgt. rewrite <- !flt_key. destruct (flt (f_of_int i) g) eqn:A, (flt g (f_of_int i)) eqn:B; split; split; intros; try lia; auto; try discriminate.
      apply flt_key in A, B. unfold klt in *. destruct (fkey (f_of_int i)), (fkey g); lia.
    - unfold cmp3, fgt. rewrite <- !flt_key. destruct (flt f (f_of_int j)) eqn:A, (flt (f_of_int j) f) eqn:B; split; split; intros; try lia; auto; try discriminate.
      apply flt_key in A, B. unfold klt in *. destruct (fkey (f_of_int j)), (fkey f); lia.
    - unfold cmp3, fgt. rewrite <- !flt_key. destruct (flt f g) eqn:A, (flt g f) eqn:B; split; split; intros; try lia; auto; try discriminate.
      apply flt_key in A, B. unfold klt in *. destruct (fkey f), (fkey g); lia.
    - destruct (sgn_presents _ _ _ (cmp_strings_spec s s')) as (A & B & _).
      rewrite A, B. assert (LC : forall x l m, lex (x :: l) (x :: m) <-> lex l m).
      { intros z l m. split; [intro H; inversion H; subst; auto; lia|apply lex_eq]. }
      destruct s, s'; cbn [value_key tl app].
      + now rewrite !LC.
      + split; split; intro H; try easy; try (inversion H); try constructor.
      + split; split; intro H; try easy; try (inversion H); try constructor.
      + split; split; intro H; try easy; inversion H.
  Qed.
  Lemma ordinal_created p u v : created jen p -> p_type p = PORDINAL -> wf_datum u -> wf_datum v ->
    (exists i j, position p u i /\ position p v j /\ ordinal_compare jen p u v = Ok (Z.sgn (Z.of_nat i - Z.of_nat j))) \/
    ((~ In (d_val u) (map d_val (p_values p)) \/ ~ In (d_val v) (map d_val (p_values p))) /\
     ordinal_compare jen p u v = Err ERR_INVALID_VALUE).
  Proof.
    intros C T Wu Wv. destruct C as [nm t lo up q def p' N M1 M2 M3 M4 H | t nm vals idx p' K' N W' Hi H | nm N].
    - destruct (check_numerical jen _ _ _ _ _ _ _ H) as (_ & -> & _). discriminate.
    - destruct (check_categorical jen t nm vals idx p' K' W' Hi H) as (T' & _ & V & _ & _).
      rewrite T' in T. subst t. destruct (ordinal_spec jen nm vals idx p' W' Hi H) as [O1 O2].
      destruct (created_cat_inv _ _ _ _ _ _ W' Hi H) as [_ (_ & _ & _ & ND)].
      assert (E : map d_val (p_values p') = map d_val vals) by (rewrite V, map_map; reflexivity).
      unfold position. rewrite E.
      destruct (in_dec value_eq_dec (d_val u) (map d_val vals)) as [Iu|Iu]; [|right; split; [auto|apply O2; auto]].
      destruct (in_dec value_eq_dec (d_val v) (map d_val vals)) as [Iv|Iv]; [|right; split; [auto|apply O2; auto]].
      left. destruct (In_nth_error _ _ Iu) as [i Hi']. destruct (In_nth_error _ _ Iv) as [j Hj].
      assert (U : forall k l w, nth_error (map d_val vals) k = Some w -> nth_error (map d_val vals) l = Some w -> l = k).
      { intros k l w A B. rewrite NoDup_nth_error in ND. apply ND; [apply nth_error_Some; congruence|congruence]. }
      exists i, j. split; [split; [exact Hi'|intros; eapply U; eauto]|]. split; [split; [exact Hj|intros; eapply U; eauto]|].
      rewrite nth_error_map in Hi', Hj. destruct (nth_error vals i) as [a|] eqn:Ei; [|discriminate].
      destruct (nth_error vals j) as [b|] eqn:Ej; [|discriminate]. cbn in Hi', Hj. 
      apply (O1 i j a b); auto; congruence.
    - discriminate T.
  Qed.

  (** the four relations *)
  Definition tests (test : Z -> bool) (rel : Prop -> Prop -> Prop) : Prop :=
    forall c P Q, (c < 0 <-> P) -> (c > 0 <-> Q) -> (test c = true <-> rel P Q).
  Lemma tests_lt : tests (fun c => c <? 0) (fun lt _ => lt).
  Proof. intros c P Q A B. rewrite <- A. lia. Qed.
  Lemma tests_gt : tests (fun c => c >? 0) (fun _ gt => gt).
  Proof. intros c P Q A B. rewrite <- B. lia. Qed.
  Lemma tests_le : tests (fun c => c <=? 0) (fun _ gt => ~ gt).
  Proof. intros c P Q A B. rewrite <- B. lia. Qed.
  Lemma tests_ge : tests (fun c => c >=? 0) (fun lt _ => ~ lt).
  Proof. intros c P Q A B. rewrite <- A. lia. Qed.

  Lemma kind_iff p t : is_ptype p t = true <-> is_kind t p.
  Proof.
    unfold is_kind. destruct p as [p|]; cbn.
    - rewrite Z.eqb_eq. split; [intro; eauto|]. intros (q & E & T). now injection E as ->.
    - split; [discriminate|]. now intros (q & E & T).
  Qed.
  Lemma flag_of b : bool_of b = flag b. Proof. now destruct b. Qed.
  Lemma rank_created pl pr p : ok_param pl -> ok_param pr -> rank pl pr = Some p -> created jen p /\ p_type p = PORDINAL.
  Proof.
    unfold rank. intros Ol Or. destruct pl as [p1|].
    - destruct (Z.eqb_spec (p_type p1) PORDINAL).
      + intro E. injection E as <-. split; auto.
      + destruct pr as [p2|]; [|discriminate]. destruct (Z.eqb_spec (p_type p2) PORDINAL); [|discriminate].
        intro E. injection E as <-. split; auto.
    - destruct pr as [p2|]; [|discriminate]. destruct (Z.eqb_spec (p_type p2) PORDINAL); [|discriminate].
      intro E. injection E as <-. split; auto.
  Qed.
  Lemma order_branch test pl pr x y :
    match pl, pr with
      | Some p, _ =>
          if p_type p =? PORDINAL then do c <- ordinal_compare jen p x y; Ok (bool_of (test c))
          else match pr with
               | Some q => if p_type q =? PORDINAL then do c <- ordinal_compare jen q x y; Ok (bool_of (test c))
                           else do c <- cmp_generic x y; Ok (bool_of (test c))
               | None => do c <- cmp_generic x y; Ok (bool_of (test c))
               end
      | None, Some q =>
          if p_type q =? PORDINAL then do c <- ordinal_compare jen q x y; Ok (bool_of (test c))
          else do c <- cmp_generic x y; Ok (bool_of (test c))
      | None, None => do c <- cmp_generic x y; Ok (bool_of (test c))
    end = match rank pl pr with
          | Some p => do c <- ordinal_compare jen p x y; Ok (bool_of (test c))
          | None => do c <- cmp_generic x y; Ok (bool_of (test c))
          end.
  Proof.
    unfold rank. destruct pl as [p|].
    - destruct (p_type p =? PORDINAL); [reflexivity|]. destruct pr as [q|]; [|reflexivity]. now destruct (p_type q =? PORDINAL).
    - destruct pr as [q|]; [|reflexivity]. now destruct (p_type q =? PORDINAL).
  Qed.
  Lemma order_spec test rel pl pr l r : tests test rel -> ok_param pl -> ok_param pr ->
    (forall x, l = Ok x -> wf_datum x) -> (forall x, r = Ok x -> wf_datum x) ->
    binary l r (order_means rel pl pr) (order_eval jen test pl pr l r).
  Proof.
    intros R Ol Or Wl Wr. destruct l as [x| |]; [|reflexivity..]. destruct r as [y| |]; [|reflexivity..].
    specialize (Wl x eq_refl). specialize (Wr y eq_refl). unfold binary, order_eval. cbn [bind].
    destruct (is_ptype pl PCATEGORICAL || is_ptype pr PCATEGORICAL) eqn:K; cbn [refute bind].
    { apply om_categorical. rewrite <- !kind_iff. apply orb_prop in K. exact K. }
    assert (NK : ~ (is_kind PCATEGORICAL pl \/ is_kind PCATEGORICAL pr)).
    { rewrite <- !kind_iff. intro X. apply orb_true_iff in X. congruence. }
    destruct (is_inactive x) eqn:Ix. { apply om_inactive; auto. left. now apply inactive_iff. }
    destruct (is_inactive y) eqn:Iy. { apply om_inactive; auto. right. now apply inactive_iff. }
    apply inactive_false in Ix, Iy; auto.
    destruct (check_parameters_spec pl y Ol Wr) as [[-> Al]|[-> Al]]; cbn [bind]; [|now apply om_refused; auto; tauto].
    destruct (check_parameters_spec pr x Or Wl) as [[-> Ar]|[-> Ar]]; cbn [bind]; [|now apply om_refused; auto; tauto].
    rewrite order_branch. destruct (rank pl pr) as [p|] eqn:Rk.
    - destruct (rank_created _ _ _ Ol Or Rk) as [C T].
      destruct (ordinal_created p x y C T Wl Wr) as [(i & j & Pi & Pj & ->)|[U ->]]; cbn [bind].
      + rewrite flag_of. apply (om_ordinal _ _ _ _ _ p i j); auto. apply R; lia.
      + now apply (om_undeclared _ _ _ _ _ p).
    - destruct (cmp_generic_spec x y Wl Wr) as [[O (c & -> & A & B)]|[O ->]]; cbn [bind].
      + rewrite flag_of. apply om_order; auto.
      + now apply om_unordered.
  Qed.

  Lemma in_loop_spec p x rs : ok_param p -> wf_datum x -> d_val x <> VInactive ->
    (forall y, In (Ok y) rs -> wf_datum y) ->
    forall done b, Forall (differs p x) done ->
    (b = true <-> exists y, In (Ok y) done /\ d_val y = VInactive) ->
    in_means p x (done ++ rs) (in_loop jen p x rs b).
  Proof.
    intros O Wx Nx. induction rs as [|r rs IH]; intros W done b D B.
    - cbn [in_loop]. rewrite app_nil_r. destruct b.
      + destruct (proj1 B eq_refl) as (y & I1 & I2). now apply (im_unknown _ _ _ y).
      + apply im_absent; auto. intros y I1 I2. assert (false = true) by (apply B; eauto). discriminate.
    - cbn [in_loop]. destruct r as [y|e|e]; cbn [bind].
      2: apply (im_failed p x _ done (Err e) rs); auto; discriminate.
      2: apply (im_failed p x _ done (UB e) rs); auto; discriminate.
      assert (Wy : wf_datum y) by (apply W; now left).
      destruct (check_parameters_spec p y O Wy) as [[-> A]|[-> A]]; cbn [bind].
      2: now apply (im_refused p x _ done y rs).
      destruct (test_equal_spec x y Wx Wy) as [E _]. destruct (snd (test_equal x y)).
      + apply (im_found p x _ done y rs); auto. now apply E.
      + assert (Dy : differs p x (Ok y)).
        { exists y. split; [reflexivity|]. split; auto. intro S. apply E in S. discriminate. }
        replace (done ++ Ok y :: rs) with ((done ++ [Ok y]) ++ rs) by now rewrite <- app_assoc.
        apply IH.
        * intros z Hz. apply W. now right.
        * apply Forall_app. split; auto.
        * rewrite orb_true_iff, B, (inactive_iff y Wy). split.
          -- intros [(z & I1 & I2)|I1]; [exists z|exists y]; (split; [apply in_or_app; cbn; auto|auto]).
          -- intros (z & I1 & I2). apply in_app_or in I1. destruct I1 as [I1|[I1|[]]]; [left; eauto|].
             injection I1 as ->. now right.
  Qed.
  Lemma in_spec p l rs : ok_param p -> (forall x, l = Ok x -> wf_datum x) ->
    (forall y, In (Ok y) rs -> wf_datum y) ->
    unary l (fun x => in_means p x rs) (in_eval jen p l rs).
  Proof.
    intros O Wl W. destruct l as [x| |]; [|reflexivity..]. specialize (Wl x eq_refl).
    unfold unary, in_eval. cbn [bind]. destruct (is_inactive x) eqn:Ix.
    - apply im_inactive. now apply inactive_iff.
    - apply inactive_false in Ix; auto. apply (in_loop_spec p x rs O Wl Ix W [] false); [constructor|].
      split; [discriminate|]. intros (y & [] & _).
  Qed.
End Heap.

(** arithmetic *)
Lemma int_result_cases i : (in_signed 64 i /\ int_result i = Ok (ccs_int i)) \/ (~ in_signed 64 i /\ int_result i = UB UBOverflow).
Proof.
  unfold int_result, in_signed, INT64_MIN, INT64_MAX. destruct (Z.leb_spec (- 2 ^ 63) i), (Z.leb_spec i (2 ^ 63 - 1)); cbn;
    [left|right|right|right]; (split; [lia|reflexivity]).
Qed.
Definition exactly (fi : Z -> Z -> res datum) (exact : Z -> Z -> Z) (overflow : Z -> Z -> Prop) (nz : bool) : Prop :=
  forall i j, in_signed 64 i -> in_signed 64 j -> (nz = true -> j <> 0) ->
  (~ overflow i j /\ fi i j = Ok (ccs_int (exact i j))) \/ (overflow i j /\ fi i j = UB UBOverflow).
Lemma result_exactly f : exactly (fun i j => int_result (f i j)) f (leaves f) false.
Proof.
  intros i j _ _ _. unfold leaves. destruct (int_result_cases (f i j)) as [[A B]|[A B]]; [left|right]; split; auto.
Qed.
Lemma quot_exactly : exactly int_quot Z.quot (leaves Z.quot) true.
Proof.
  intros i j _ _ _. unfold leaves, int_quot. destruct (int_result_cases (Z.quot i j)) as [[A B]|[A B]]; [left|right]; split; auto.
Qed.
Lemma rem_exactly : exactly int_rem Z.rem quotient_leaves true.
Proof.
  intros i j Hi Hj N. unfold quotient_leaves, int_rem.
  destruct (Z.eqb_spec i INT64_MIN), (Z.eqb_spec j (-1)); cbn; [right|left|left|left]; (split; [tauto|reflexivity]).
Qed.
Lemma arith_spec nz fi ff exact overflow l r : exactly fi exact overflow nz ->
  (forall x, l = Ok x -> wf_datum x) -> (forall x, r = Ok x -> wf_datum x) ->
  binary l r (arith_means nz exact ff overflow) (arith_eval nz fi ff l r).
Proof.
  intros X Wl Wr. destruct l as [x| |]; [|reflexivity..]. destruct r as [y| |]; [|reflexivity..].
  specialize (Wl x eq_refl). specialize (Wr y eq_refl). unfold binary, arith_eval. cbn [bind].
  destruct (is_inactive x) eqn:Ix. { apply am_inactive. left. now apply inactive_iff. }
  destruct (is_inactive y) eqn:Iy. { apply am_inactive. right. now apply inactive_iff. }
  apply inactive_false in Ix, Iy; auto. unfold wf_datum in *.
  assert (Z1 : forall j, nz && (j =? 0) = true -> nz = true /\ j = 0) by (intros j; destruct nz; cbn; [rewrite Z.eqb_eq; auto|discriminate]).
  assert (Z2 : forall j, nz && (j =? 0) = false -> nz = true -> j <> 0) by (intros j; destruct nz; cbn; [rewrite Z.eqb_neq; auto|discriminate]).
  assert (Z3 : forall f, nz && feq f 0 = true -> nz = true /\ keq (fkey f) (fkey 0)) by (intros f; destruct nz; cbn; [rewrite feq_key; auto|discriminate]).
  assert (Z4 : forall f, nz && feq f 0 = false -> nz = true -> ~ keq (fkey f) (fkey 0)).
  { intros f; destruct nz; cbn [andb]; [|discriminate]. intros E _ K. apply feq_key in K. congruence. }
  destruct (d_val x) eqn:Ex; try (apply am_type; rewrite ?Ex; auto; fail);
  destruct (d_val y) eqn:Ey; try (apply am_type; rewrite ?Ex, ?Ey; auto; fail).
  - destruct (nz && (i0 =? 0)) eqn:N; cbn [refute bind].
    + apply Z1 in N. destruct N. apply (am_zero _ _ _ _ _ _ (i, true) (i0, true)); auto; [now rewrite Ex|now rewrite Ey].
    + specialize (Z2 _ N). cbn in Wl, Wr. destruct (X i i0 Wl Wr Z2) as [[A ->]|[A ->]].
      * apply (am_int _ _ _ _ _ _ i i0); auto; [now rewrite Ex|now rewrite Ey].
      * apply (am_overflow _ _ _ _ _ _ i i0); auto; [now rewrite Ex|now rewrite Ey].
  - destruct (nz && feq bits 0) eqn:N; cbn [refute bind].
    + apply Z3 in N. destruct N. apply (am_zero _ _ _ _ _ _ (i, true) (bits, false)); auto; [now rewrite Ex|now rewrite Ey].
    + apply (am_float _ _ _ _ _ _ (i, true) (bits, false)); auto; [now rewrite Ex|now rewrite Ey|exact (Z4 _ N)].
  - destruct (nz && (i =? 0)) eqn:N; cbn [refute bind].
    + apply Z1 in N. destruct N. apply (am_zero _ _ _ _ _ _ (bits, false) (i, true)); auto; [now rewrite Ex|now rewrite Ey].
    + apply (am_float _ _ _ _ _ _ (bits, false) (i, true)); auto; [now rewrite Ex|now rewrite Ey|exact (Z2 _ N)].
  - destruct (nz && feq bits0 0) eqn:N; cbn [refute bind].
    + apply Z3 in N. destruct N. apply (am_zero _ _ _ _ _ _ (bits, false) (bits0, false)); auto; [now rewrite Ex|now rewrite Ey].
    + apply (am_float _ _ _ _ _ _ (bits, false) (bits0, false)); auto; [now rewrite Ex|now rewrite Ey|exact (Z4 _ N)].
Qed.
Lemma positive_spec n : (forall x, n = Ok x -> wf_datum x) -> unary n pos_means (positive_eval n).
Proof.
  intros W. destruct n as [x| |]; [|reflexivity..]. specialize (W x eq_refl).
  unfold unary, pos_means, positive_eval, is_inactive, wf_datum in *. cbn [bind].
  destruct (d_val x) eqn:Ex; cbn in W |- *; try (unk t); try (unk t0); reflexivity.
Qed.
Lemma negative_spec n : (forall x, n = Ok x -> wf_datum x) -> unary n neg_means (negative_eval n).
Proof.
  intros W. destruct n as [x| |]; [|reflexivity..]. specialize (W x eq_refl).
  unfold unary, neg_means, negative_eval, is_inactive, wf_datum in *. cbn [bind].
  destruct (d_val x) eqn:Ex; cbn -[int_result in_signed Z.opp] in W |- *; try (unk t); try (unk t0); try reflexivity.
  apply int_result_cases.
Qed.

(** ** Evaluation of an expression *)
Lemma flag_wf b : wf_datum (flag b). Proof. destruct b; cbn; auto. Qed.
Lemma inactive_wf : wf_datum inactive. Proof. exact Logic.I. Qed.
Lemma bool_of_wf b : wf_datum (bool_of b). Proof. rewrite flag_of. apply flag_wf. Qed.
Lemma equal_eval_wf jen neg pl pr l r d : equal_eval jen neg pl pr l r = Ok d -> wf_datum d.
Proof.
  unfold equal_eval. destruct l as [x| |]; [|discriminate..]. destruct r as [y| |]; [|discriminate..]. cbn [bind].
  destruct (is_inactive x); [intro E; injection E as <-; exact inactive_wf|].
  destruct (is_inactive y); [intro E; injection E as <-; exact inactive_wf|].
  destruct (check_parameters jen pl y); [|discriminate..]. cbn [bind].
  destruct (check_parameters jen pr x); [|discriminate..]. cbn [bind].
  destruct (test_equal x y). destruct (refute _ _); [|discriminate..]. cbn [bind].
  intro E. injection E as <-. apply bool_of_wf.
Qed.
Lemma order_eval_wf jen test pl pr l r d : order_eval jen test pl pr l r = Ok d -> wf_datum d.
Proof.
  unfold order_eval. destruct l as [x| |]; [|discriminate..]. destruct r as [y| |]; [|discriminate..]. cbn [bind].
  destruct (refute _ _); [|discriminate..]. cbn [bind].
  destruct (is_inactive x); [intro E; injection E as <-; exact inactive_wf|].
  destruct (is_inactive y); [intro E; injection E as <-; exact inactive_wf|].
  destruct (check_parameters jen pl y); [|discriminate..]. cbn [bind].
  destruct (check_parameters jen pr x); [|discriminate..]. cbn [bind].
  rewrite order_branch. destruct (rank pl pr).
  - destruct (ordinal_compare _ _ _ _); [|discriminate..]. cbn [bind]. intro E. injection E as <-. apply bool_of_wf.
  - destruct (cmp_generic _ _); [|discriminate..]. cbn [bind]. intro E. injection E as <-. apply bool_of_wf.
Qed.
Lemma in_loop_wf jen p x rs : forall b d, in_loop jen p x rs b = Ok d -> wf_datum d.
Proof.
  induction rs as [|r rs IH]; intros b d; cbn [in_loop].
  - intro E. injection E as <-. destruct b; [exact inactive_wf|apply (flag_wf false)].
  - destruct r as [y| |]; [|discriminate..]. cbn [bind]. destruct (check_parameters _ _ _); [|discriminate..]. cbn [bind].
    destruct (snd _); [intro E; injection E as <-; apply (flag_wf true)|]. apply IH.
Qed.
Definition patterned (ff : Z -> Z -> Z) : Prop := forall a b, pattern a -> pattern b -> pattern (ff a b).
Definition signed_result (fi : Z -> Z -> res datum) (nz : bool) : Prop :=
  forall i j d, in_signed 64 i -> in_signed 64 j -> (nz = true -> j <> 0) -> fi i j = Ok d -> wf_datum d.
Lemma arith_eval_wf nz fi ff l r d : patterned ff -> signed_result fi nz ->
  (forall x, l = Ok x -> wf_datum x) -> (forall x, r = Ok x -> wf_datum x) ->
  arith_eval nz fi ff l r = Ok d -> wf_datum d.
Proof.
  intros PF SF Wl Wr. unfold arith_eval.
  destruct l as [x| |]; [|discriminate..]. destruct r as [y| |]; [|discriminate..]. cbn [bind].
  specialize (Wl x eq_refl). specialize (Wr y eq_refl).
  destruct (is_inactive x); [intro E; injection E as <-; exact inactive_wf|].
  destruct (is_inactive y); [intro E; injection E as <-; exact inactive_wf|].
  unfold wf_datum in Wl, Wr. destruct (d_val x), (d_val y); try discriminate; cbn [wf_value] in Wl, Wr.
  - destruct (nz && (i0 =? 0)) eqn:N; [discriminate|]. cbn [refute bind]. apply SF; auto.
    intro H. rewrite H in N. cbn in N. apply Z.eqb_neq. exact N.
  - destruct (refute _ _); [|discriminate..]. cbn [bind]. intro E. injection E as <-. apply PF; auto. apply f_of_int_pattern.
  - destruct (refute _ _); [|discriminate..]. cbn [bind]. intro E. injection E as <-. apply PF; auto. apply f_of_int_pattern.
  - destruct (refute _ _); [|discriminate..]. cbn [bind]. intro E. injection E as <-. apply PF; auto.
Qed.
Lemma int_result_wf i d : int_result i = Ok d -> wf_datum d.
Proof. destruct (int_result_cases i) as [[A ->]|[A ->]]; intro E; [|discriminate]. injection E as <-. exact A. Qed.
Lemma rem_wf : signed_result int_rem true.
Proof.
  intros i j d Hi Hj N. unfold int_rem. destruct (_ && _); [discriminate|]. intro E. injection E as <-.
  cbn. unfold in_signed in *. specialize (N eq_refl).
  pose proof (Z.rem_bound_abs i j N). lia.
Qed.

Section World.
  Variable heap : Z -> param.
  Variable jen : list Z -> Z.
  Variable ctx : option context.
  Variable values : option (list datum).
  Variable known : Z -> Prop.
  Notation ev := (eval heap jen ctx values).
  Hypothesis SW : sound_world heap jen values known.

  Lemma var_wf h d : var_eval ctx values h = Ok d -> wf_datum d.
  Proof.
    unfold var_eval. destruct values as [vs|] eqn:V; [|discriminate]. destruct ctx as [c|]; [|discriminate].
    destruct (get_index c h) as [i| |]; [|discriminate..]. cbn [bind].
    destruct (nth_error vs i) eqn:N; [|discriminate]. intro E. injection E as <-.
    apply nth_error_In in N. destruct SW as [_ W]. specialize (W vs eq_refl). rewrite Forall_forall in W. auto.
  Qed.
  Lemma eval_wf e : wf_expr known e -> forall d, ev e = Ok d -> wf_datum d.
  Proof.
    induction e as [o d|o h|o t nodes IH] using expr_rect'; intros W r; cbn [eval].
    - intro E. injection E as <-. inversion W; subst. assumption.
    - apply var_wf.
    - inversion W as [| |o' t' nodes' TK WN]; subst.
      assert (IH' : forall n, In n nodes -> forall d, ev n = Ok d -> wf_datum d).
      { rewrite Forall_forall in IH, WN. intros n Hn. exact (IH n Hn (WN n Hn)). }
      clear IH WN W. destruct (t =? XLIST); [discriminate|]. destruct (t =? XIN).
      + destruct nodes as [|l [|e2 rest]]; [discriminate|discriminate|].
        destruct e2 as [| |o2 t2 elems]; try discriminate. destruct (t2 =? XLIST); [|discriminate].
        unfold in_eval. destruct (ev l); [|discriminate..]. cbn [bind].
        destruct (is_inactive _); [intro E; injection E as <-; exact inactive_wf|apply in_loop_wf].
      + destruct nodes as [|a rest]; [discriminate|]. assert (Wa := IH' a (or_introl eq_refl)).
        destruct (t =? XPOSITIVE).
        { pose proof (positive_spec (ev a) Wa) as S. unfold unary in S. destruct (ev a) as [x| |]; [|rewrite S; discriminate..].
          unfold pos_means in S. rewrite S. specialize (Wa x eq_refl).
          destruct (d_val x); intro E; try discriminate; injection E as <-; first [exact Wa|exact inactive_wf]. }
        destruct (t =? XNEGATIVE).
        { pose proof (negative_spec (ev a) Wa) as S. unfold unary in S. destruct (ev a) as [x| |]; [|rewrite S; discriminate..].
          unfold neg_means in S. specialize (Wa x eq_refl). unfold wf_datum in Wa.
          destruct (d_val x) as [|i|f|i|s| |h|t' i]; try (rewrite S; discriminate).
          - destruct S as [[A ->]|[_ ->]]; [|discriminate]. intro E. injection E as <-. exact A.
          - rewrite S. intro E. injection E as <-. apply fopp_pattern. exact Wa.
          - rewrite S. intro E. injection E as <-. exact inactive_wf. }
        destruct (t =? XNOT).
        { unfold not_eval. destruct (ev a) as [x| |]; [|discriminate..]. cbn [bind].
          destruct (is_inactive x); [intro E; injection E as <-; exact inactive_wf|].
          destruct (refute _ _); [|discriminate..]. cbn [bind]. intro E. injection E as <-.
          destruct (truth x); [apply (flag_wf false)|apply (flag_wf true)]. }
        destruct rest as [|b rest]; [discriminate|]. assert (Wb := IH' b (or_intror (or_introl eq_refl))).
        destruct (t =? XOR).
        { unfold or_eval. destruct (ev a) as [x| |]; [|discriminate..]. destruct (ev b) as [y| |]; [|discriminate..]. cbn [bind].
          destruct (refute _ _); [|discriminate..]. cbn [bind]. destruct (refute _ _); [|discriminate..]. cbn [bind].
          intro E. destruct (is_bool x && truth x), (is_bool y && truth y), (is_inactive x), (is_inactive y); injection E as <-;
            first [exact inactive_wf|apply (flag_wf true)|apply (flag_wf false)]. }
        destruct (t =? XAND).
        { unfold and_eval. destruct (ev a) as [x| |]; [|discriminate..]. destruct (ev b) as [y| |]; [|discriminate..]. cbn [bind].
          destruct (is_inactive x); [intro E; injection E as <-; exact inactive_wf|].
          destruct (is_inactive y); [intro E; injection E as <-; exact inactive_wf|].
          destruct (refute _ _); [|discriminate..]. cbn [bind]. intro E. injection E as <-. apply bool_of_wf. }
        destruct (t =? XEQUAL); [apply equal_eval_wf|]. destruct (t =? XNOT_EQUAL); [apply equal_eval_wf|].
        destruct (t =? XLESS); [apply order_eval_wf|]. destruct (t =? XGREATER); [apply order_eval_wf|].
        destruct (t =? XLESS_OR_EQUAL); [apply order_eval_wf|]. destruct (t =? XGREATER_OR_EQUAL); [apply order_eval_wf|].
        assert (IR : forall f, signed_result (fun i j => int_result (f i j)) false) by (intros f i j d _ _ _; apply int_result_wf).
        destruct (t =? XADD); [apply arith_eval_wf; auto; exact fadd_pattern|].
        destruct (t =? XSUBSTRACT); [apply arith_eval_wf; auto; exact fsub_pattern|].
        destruct (t =? XMULTIPLY); [apply arith_eval_wf; auto; exact fmul_pattern|].
        destruct (t =? XDIVIDE); [apply arith_eval_wf; auto; [exact fdiv_pattern|intros i j d _ _ _; apply int_result_wf]|].
        destruct (t =? XMODULO); [apply arith_eval_wf; auto; [exact ffmod_pattern|exact rem_wf]|].
        discriminate.
  Qed.
  Lemma node_ok e : wf_expr known e -> ok_param jen (node_param heap e).
  Proof.
    intros W p E. destruct e; cbn in E; try discriminate. injection E as <-. inversion W; subst. now apply SW.
  Qed.
End World.
