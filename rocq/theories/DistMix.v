(** Proofs: oversampling, creation of mixtures. *)
From Coq Require Import ZArith List Bool Lia.
From Verif Require Import Base Datum CodecModel FloatModel FloatSpec FloatProofs FloatRound IntervalModel IntervalSpec IntervalProofs
  DistModel DistSpec DistSearch DistRoulette DistProofs.
Import ListNotations.
Open Scope Z_scope.

(** ** Oversampling *)
Lemma intersect_points a b r : proper a -> proper b -> i_type a = i_type b -> interval_intersect a b = Ok r ->
  forall h, covers_point r h <-> covers_point a h /\ covers_point b h.
Proof.
  intros Pa Pb T E h. destruct (intersect_char a b Pa Pb T) as (r' & E' & Tr & Pr & H). rewrite E in E'. injection E' as <-.
  destruct (proper_pos a Pa) as (l1 & u1 & L1 & U1). destruct (proper_pos b Pb) as (l2 & u2 & L2 & U2).
  destruct (H l1 u1 l2 u2 L1 U1 L2 U2) as (L & U & LI & UI). unfold covers_point. rewrite L1, U1, L2, U2, L, U, LI, UI. clear.
  destruct (Z.eqb_spec l1 l2), (Z.ltb_spec l2 l1), (i_linc a), (i_linc b); cbn [andb];
  destruct (Z.eqb_spec u1 u2), (Z.ltb_spec u1 u2), (i_uinc a), (i_uinc b); cbn [andb]; lia.
Qed.
Lemma covers_dec a h : {covers_point a h} + {~ covers_point a h}.
Proof.
  unfold covers_point. destruct (pos (i_type a) (i_lower a)) as [l|]; [|right; tauto]. destruct (pos (i_type a) (i_upper a)) as [u|]; [|right; tauto].
  assert (A : {if i_linc a then 2 * l <= h else 2 * l < h} + {~ (if i_linc a then 2 * l <= h else 2 * l < h)}) by (destruct (i_linc a); [apply Z_le_dec|apply Z_lt_dec]).
  assert (B : {if i_uinc a then h <= 2 * u else h < 2 * u} + {~ (if i_uinc a then h <= 2 * u else h < 2 * u)}) by (destruct (i_uinc a); [apply Z_le_dec|apply Z_lt_dec]).
  destruct A, B; [left|right|right|right]; tauto.
Qed.
Lemma oversampling_float a b : proper a -> proper b -> i_type a = NUM_FLOAT -> i_type b = NUM_FLOAT ->
  exists o, oversampling1 a b = Ok o /\
    (o = false -> forall v, member a v -> member b v) /\
    (o = true -> (forall h, ~ covers_point a h) \/ exists h, covers_point a h /\ ~ covers_point b h).
Proof.
  intros Pa Pb Ta Tb. assert (T : i_type a = i_type b) by congruence.
  destruct (intersect_exact a b Pa Pb T) as (r & E & Tr & Pr & M). unfold oversampling1. rewrite E. cbn [bind].
  pose proof (intersect_points a b r Pa Pb T E) as Q.
  destruct (equal_float a r Pa Pr Ta ltac:(congruence)) as (e & -> & A & B). cbn [bind]. exists (negb e). split; [reflexivity|].
  destruct e; cbn [negb]; split; try discriminate; intros _.
  - intros v V. apply (A eq_refl v) in V. now apply M in V.
  - destruct (B eq_refl) as [[Ea _]|[h Hh]]; [left; now apply empty_points|]. right. exists h. rewrite Q in Hh.
    assert (D : {covers_point a h} + {~ covers_point a h}).
    { apply covers_dec. }
    destruct D as [D|D]; [|tauto]. split; [exact D|]. tauto.
Qed.
Definition edge (i : interval) : Prop := (i_linc i = false /\ i_lower i = INT64_MAX) \/ (i_uinc i = false /\ i_upper i = INT64_MIN).
Definition machine_interval (i : interval) : Prop := in_signed 64 (i_lower i) /\ in_signed 64 (i_upper i).
Lemma oversampling_int a b : i_type a = NUM_INT -> i_type b = NUM_INT -> machine_interval a -> machine_interval b ->
  (exists o, oversampling1 a b = Ok o /\
    (o = false -> forall v, member a v -> member b v) /\
    (o = true -> (forall v, ~ member a v) \/ exists v, member a v /\ ~ member b v)) \/
  (oversampling1 a b = UB UBOverflow /\ (edge a \/ edge b)).
Proof.
  intros Ta Tb [La Ua] [Lb Ub]. assert (T : i_type a = i_type b) by congruence.
  assert (Pa : proper a) by (unfold proper, pos; rewrite Ta; cbn; repeat split; [left; reflexivity|discriminate|discriminate]).
  assert (Pb : proper b) by (unfold proper, pos; rewrite Tb; cbn; repeat split; [left; reflexivity|discriminate|discriminate]).
  destruct (intersect_exact a b Pa Pb T) as (r & E & Tr & Pr & M). unfold oversampling1. rewrite E. cbn [bind].
  destruct (intersect_char a b Pa Pb T) as (r' & E' & _ & _ & H). rewrite E in E'. injection E' as <-.
  unfold pos in H. rewrite Tr, Ta, Tb in H. cbn in H. destruct (H _ _ _ _ eq_refl eq_refl eq_refl eq_refl) as (L & U & LI & UI).
  injection L as L. injection U as U.
  destruct (equal_int a r Ta ltac:(congruence) La Ua) as [(e & -> & A & B)|(-> & i & I & X)].
  - rewrite L. unfold in_signed in *. lia.
  - rewrite U. unfold in_signed in *. lia.
  - left. cbn [bind]. exists (negb e). split; [reflexivity|]. destruct e; cbn [negb]; split; try discriminate; intros _.
    + intros v V. apply (A eq_refl v) in V. now apply M in V.
    + destruct (B eq_refl) as [[Ea _]|[v V]]; [now left|]. right. exists v. rewrite M in V.
      assert (D : {member a v} + {~ member a v}).
      { destruct (interval_include a v) eqn:Q; [left; now apply include_member|right]. intro X. apply include_member in X. congruence. }
      destruct D as [D|D]; [|tauto]. split; [exact D|]. tauto.
  - right. split; [reflexivity|]. unfold edge. destruct I as [->| ->]; [left; exact X|]. rewrite L, U, LI, UI in X.
    unfold in_signed, INT64_MAX, INT64_MIN in *. change (2 ^ (64 - 1)) with (2 ^ 63) in *.
    destruct X as [[X Y]|[X Y]].
    + destruct (Z.eqb_spec (i_lower a) (i_lower b)), (Z.ltb_spec (i_lower b) (i_lower a)).
      * lia.
      * apply andb_false_iff in X. destruct X; [left|right]; left; split; auto; lia.
      * left; left. split; auto; lia.
      * right; left. split; auto; lia.
    + destruct (Z.eqb_spec (i_upper a) (i_upper b)), (Z.ltb_spec (i_upper a) (i_upper b)).
      * lia.
      * apply andb_false_iff in X. destruct X; [left|right]; right; split; auto; lia.
      * left; right. split; auto; lia.
      * right; right. split; auto; lia.
Qed.
Lemma oversampling_types a b : i_type a <> i_type b -> oversampling1 a b = Err ERR_INVALID_TYPE.
Proof. intro T. unfold oversampling1. now rewrite (proj1 (mixed_types_rejected a b T)). Qed.
Lemma check_oversampling_spec bounds : forall intervals, length intervals = length bounds ->
  match check_oversampling bounds intervals with
  | Ok os => Forall2 (fun p o => oversampling1 (fst p) (snd p) = Ok o) (combine bounds intervals) os
  | Err c => exists j a b, nth_error bounds j = Some a /\ nth_error intervals j = Some b /\ oversampling1 a b = Err c
  | UB w => exists j a b, nth_error bounds j = Some a /\ nth_error intervals j = Some b /\ oversampling1 a b = UB w
  end.
Proof.
  induction bounds as [|a l IH]; intros [|b m] L; try discriminate; cbn; [constructor|].
  destruct (oversampling1 a b) as [o|c|w] eqn:E; cbn [bind].
  - specialize (IH m ltac:(cbn in L; lia)). destruct (check_oversampling l m) as [os|c|w]; cbn [bind].
    + constructor; [exact E|exact IH].
    + destruct IH as (j & x & y & X & Y & Z). exists (S j), x, y. auto.
    + destruct IH as (j & x & y & X & Y & Z). exists (S j), x, y. auto.
  - exists 0%nat, a, b. auto.
  - exists 0%nat, a, b. auto.
Qed.

(** ** Creation of mixtures *)
Lemma combine_eq types : forall l, length l = length types ->
  forallb (fun p : Z * Z => fst p =? snd p) (combine types l) = true <-> l = types.
Proof.
  induction types as [|t ts IH]; intros [|x l] L; try discriminate; cbn; [tauto|].
  rewrite andb_true_iff, IH by (cbn in L; lia). split; [intros [A ->]; f_equal; lia|]. intro E. injection E as -> ->. split; [lia|reflexivity].
Qed.
Lemma check_types_spec types cs : Forall (fun c => c_dim c = length types) cs ->
  (Forall (fun c => c_types c = types) cs /\ check_types types cs = Ok tt) \/
  (~ Forall (fun c => c_types c = types) cs /\ check_types types cs = Err ERR_INVALID_DISTRIBUTION).
Proof.
  induction 1 as [|c cs D Ds IH]; cbn; [left; split; constructor|].
  pose proof (combine_eq types (c_types c) D) as Q. destruct (forallb (fun p : Z * Z => fst p =? snd p) (combine types (c_types c))); cbn [negb refute bind].
  - pose proof (proj1 Q eq_refl) as Q'. destruct IH as [[A ->]|[A ->]]; [left|right]; split; auto. intro F. inversion F. auto.
  - right. split; [|reflexivity]. intro F. inversion F as [|? ? X]. apply Q in X. discriminate.
Qed.
Lemma union_all_spec types : forall a b, length a = length types -> length b = length types ->
  (forall j t i, nth_error types j = Some t -> nth_error a j = Some i -> i_type i = t /\ proper i) ->
  (forall j t i, nth_error types j = Some t -> nth_error b j = Some i -> i_type i = t /\ proper i) ->
  exists r, union_all a b = Ok r /\ length r = length types /\
    (forall j t i, nth_error types j = Some t -> nth_error r j = Some i -> i_type i = t /\ proper i) /\
    forall j x y, nth_error a j = Some x -> nth_error b j = Some y -> exists z, nth_error r j = Some z /\ interval_union x y = Ok z.
Proof.
  induction types as [|t ts IH]; intros [|x a] [|y b] LA LB PA PB; try discriminate.
  - exists []. cbn. split; [reflexivity|]. split; [reflexivity|]. split; intros [|j]; discriminate.
  - destruct (PA 0%nat t x eq_refl eq_refl) as [Tx Px]. destruct (PB 0%nat t y eq_refl eq_refl) as [Ty Py].
    destruct (union_char x y Px Py ltac:(congruence)) as (z & E & Tz & Pz & _).
    destruct (IH a b ltac:(cbn in LA; lia) ltac:(cbn in LB; lia) (fun j => PA (S j)) (fun j => PB (S j))) as (r & Er & Lr & Pr & Nr).
    exists (z :: r). cbn. rewrite E. cbn [bind]. rewrite Er. cbn [bind]. split; [reflexivity|]. split; [now rewrite Lr|].
    split; intros [|j]; cbn; eauto.
    + intros t' i A B. injection A as <-. injection B as <-. split; [congruence|exact Pz].
    + intros x' y' A B. injection A as <-. injection B as <-. eauto.
Qed.
Lemma union_bounds_spec size types cs : forall bounds done,
  length bounds = length types ->
  (forall j t i, nth_error types j = Some t -> nth_error bounds j = Some i -> i_type i = t /\ proper i) ->
  Forall ok_component cs -> Forall (fun c => c_types c = types) cs ->
  (forall j l, bounds_at done j l -> exists i, nth_error bounds j = Some i /\ joined l i) ->
  (forall j, (j < length types)%nat -> exists l, bounds_at done j l) ->
  ((cs = [] \/ SIZEOF_INTERVAL * Z.of_nat (length types) <= size) /\ exists r, union_bounds size bounds cs = Ok r /\ length r = length types /\
     forall j l, bounds_at (done ++ cs) j l -> exists i, nth_error r j = Some i /\ joined l i) \/
  (cs <> [] /\ size < SIZEOF_INTERVAL * Z.of_nat (length types) /\ union_bounds size bounds cs = UB UBBounds).
Proof.
  induction cs as [|c cs IH]; intros bounds done LB PB OK TY J AT.
  - left. split; [now left|]. exists bounds. rewrite app_nil_r. auto.
  - inversion OK as [|? ? [Lc Pc] OKs]. subst. inversion TY as [|? ? Tc TYs]. subst. cbn [union_bounds]. unfold put_bounds, lenZ. rewrite Lc.
    destruct (Z.leb_spec (SIZEOF_INTERVAL * Z.of_nat (length (c_types c))) size) as [R|R]; cbn [bind]; [|right; repeat split; [discriminate|exact R]].
    left. split; [now right|].
    destruct (union_all_spec (c_types c) bounds (c_bounds c) LB Lc PB Pc) as (b & -> & Lb & Pb & Nb). cbn [bind].
    destruct (IH b (done ++ [c]) Lb Pb OKs TYs) as [[_ (r & E & Lr & Jr)]|(_ & R' & _)].
    + intros j l B. apply Forall2_app_inv_l in B. destruct B as (l1 & l2 & B1 & B2 & ->).
      inversion B2 as [|? i ? ? Hi B3]. subst. inversion B3. subst. destruct (J j l1 B1) as (x & X & JX).
      destruct (Nb j x i X Hi) as (z & Z & U). exists z. split; [exact Z|]. eapply joined_more; eauto.
    + intros j Hj. destruct (AT j Hj) as (l & B). rewrite <- Lc in Hj. apply nth_error_Some in Hj.
      destruct (nth_error (c_bounds c) j) as [i|] eqn:Ei; [|congruence]. exists (l ++ [i]). apply Forall2_app; [exact B|]. constructor; auto.
    + exists r. split; [exact E|]. split; [exact Lr|]. rewrite <- app_assoc in Jr. exact Jr.
    + lia.
Qed.

Definition acceptable (cs : list component) (weights : list Z) : Prop := mixable cs /\ weights_ok weights.
Definition below_one_before_last (weights : list Z) : Prop := ~ klt (fkey ONE) (fkey (psum (fractions weights) (length weights - 1))).
Lemma create_mixture_spec cs weights : Forall ok_component cs -> Forall pattern weights -> length weights = length cs ->
  (mixable cs /\ weights_ok weights /\ enough_room cs /\
     ((below_one_before_last weights /\ exists m, create_mixture cs weights = Ok m /\
         (forall c, In c cs -> mx_types m = c_types c) /\ length (mx_bounds m) = length (mx_types m) /\
         is_mixture_table weights (mx_table m) /\
         forall j l, bounds_at cs j l -> exists i, nth_error (mx_bounds m) j = Some i /\ joined l i) \/
      (~ below_one_before_last weights /\ create_mixture cs weights = Err ERR_INVALID_VALUE))) \/
  (mixable cs /\ weights_ok weights /\ ~ enough_room cs /\ create_mixture cs weights = UB UBBounds) \/
  (~ mixable cs /\ (create_mixture cs weights = Err ERR_INVALID_DISTRIBUTION \/ create_mixture cs weights = Err ERR_INVALID_VALUE)) \/
  (~ weights_ok weights /\ (create_mixture cs weights = Err ERR_INVALID_DISTRIBUTION \/ create_mixture cs weights = Err ERR_INVALID_VALUE)).
Proof.
  intros OK P LW. destruct cs as [|c0 rest].
  { right; right; left. split; [|right; reflexivity]. intros (c & r & E & _). discriminate. }
  unfold create_mixture. destruct (Z.ltb_spec INT64_MAX (lenZ (c0 :: rest))) as [G|G]; cbn [refute bind].
  { right; right; left. split; [|right; reflexivity]. intros (c & r & E & L & _). lia. }
  destruct (forallb (fun c => (c_dim c =? c_dim c0)%nat) rest) eqn:D; cbn [negb refute bind].
  2:{ right; right; left. split; [|left; reflexivity]. intros (c & r & E & _ & F). injection E as <- <-.
      rewrite (proj2 (forallb_forall _ _)) in D; [discriminate|]. intros c C. rewrite Forall_forall in F. unfold c_dim. rewrite (F c C). apply Nat.eqb_refl. }
  assert (DF : Forall (fun c => c_dim c = length (c_types c0)) rest).
  { apply Forall_forall. intros c C. rewrite forallb_forall in D. specialize (D c C). apply Nat.eqb_eq in D. exact D. }
  assert (WL : 0 < lenZ weights <= INT64_MAX) by (unfold lenZ in *; cbn in *; lia).
  destruct (validate_spec weights P) as [[W ->]|[W ->]]; cbn [bind].
  2:{ right; right; right. split; [|right; reflexivity]. intros [_ X]. exact (W X). }
  destruct (check_types_spec (c_types c0) rest DF) as [[T ->]|[T ->]]; cbn [bind].
  2:{ right; right; left. split; [|left; reflexivity]. intros (c & r & E & _ & F). injection E as <- <-. exact (T F). }
  assert (MX : mixable (c0 :: rest)) by (exists c0, rest; auto).
  assert (WO : weights_ok weights) by (split; auto).
  inversion OK as [|? ? OK0 OKr]. subst. pose proof OK0 as (L0 & P0).
  set (size := SIZEOF_INTERVAL * lenZ (c0 :: rest) + SIZEOF_NUMERIC_TYPE * Z.of_nat (c_dim c0)).
  destruct (union_bounds_spec size (c_types c0) rest (c_bounds c0) [c0] L0 P0 OKr T) as [[R (r & -> & Lr & J)]|(NE & R & ->)].
  - intros j l B. inversion B as [|? i ? ? Hi B']. subst. inversion B'. subst. exists i. split; [exact Hi|constructor].
  - intros j Hj. rewrite <- L0 in Hj. apply nth_error_Some in Hj. destruct (nth_error (c_bounds c0) j) as [i|] eqn:E; [|congruence]. exists [i]. constructor; auto.
  - left. split; [exact MX|]. split; [exact WO|]. split.
    { unfold enough_room. destruct rest; [exact Logic.I|]. destruct R as [R|R]; [discriminate|].
      unfold size, SIZEOF_INTERVAL, SIZEOF_NUMERIC_TYPE in R. change (length (c_types c0)) with (c_dim c0) in R. lia. }
    cbn [bind]. assert (WN : weights <> []) by (destruct weights; [discriminate|discriminate]).
    destruct (mixture_table_spec weights WN) as [[K ->]|[K (table & -> & TB)]]; cbn [bind].
    + right. split; [|reflexivity]. intro X. exact (X K).
    + left. split; [exact K|]. eexists. split; [reflexivity|]. cbn [mx_types mx_bounds mx_table].
      split; [intros c [<-|C]; [reflexivity|]; rewrite Forall_forall in T; symmetry; apply T, C|]. split; [exact Lr|]. split; [exact TB|exact J].
  - right; left. split; [exact MX|]. split; [exact WO|]. split; [|reflexivity]. intro RM. unfold enough_room in RM. destruct rest; [congruence|].
    unfold size, SIZEOF_INTERVAL, SIZEOF_NUMERIC_TYPE in R. change (length (c_types c0)) with (c_dim c0) in R. lia.
Qed.
(** bounds of the same shape are covered by their union *)
Lemma joined_covers l r : joined l r -> forall i0, In i0 l -> Forall proper l -> Forall (same_shape i0) l ->
  proper r /\ same_shape i0 r /\ forall i v, In i l -> member i v -> member r v.
Proof.
  induction 1 as [i|l i r r' J IH U]; intros i0 I0 P S.
  - inversion P; inversion S; subst. split; [auto|]. split; [auto|]. intros k v [<-|[]] M. exact M.
  - apply Forall_app in P, S. destruct P as [P Pi], S as [S Si]. inversion Pi as [|? ? PI _]; inversion Si as [|? ? SI _]; subst.
    assert (N : l <> []) by (intros ->; inversion J as [|l0 ? ? ? ? ? E]; destruct l0; discriminate).
    destruct l as [|k l'] eqn:EL; [congruence|]. rewrite <- EL in *. assert (K : In k l) by (rewrite EL; left; reflexivity).
    assert (SK : same_shape i0 k) by (rewrite Forall_forall in S; auto).
    assert (SS : Forall (same_shape k) l).
    { apply Forall_forall. intros x X. rewrite Forall_forall in S. destruct (S x X) as (A & B & C), SK as (A' & B' & C'). repeat split; congruence. }
    destruct (IH k K P SS) as (Pr & Sr & Mr). destruct SK as (A & B & C), Sr as (A' & B' & C'), SI as (A'' & B'' & C'').
    destruct (union_char r i Pr PI ltac:(congruence)) as (z & E & Tz & Pz & H). rewrite U in E. injection E as <-.
    destruct (proper_pos r Pr) as (l1 & u1 & L1 & U1). destruct (proper_pos i PI) as (l2 & u2 & L2 & U2).
    destruct (H l1 u1 l2 u2 L1 U1 L2 U2) as (_ & _ & LI & UI).
    assert (LR : i_linc r' = i_linc r) by (rewrite LI; replace (i_linc i) with (i_linc r) by congruence; rewrite andb_diag; destruct (l1 =? l2), (l1 <? l2); reflexivity).
    assert (UR : i_uinc r' = i_uinc r) by (rewrite UI; replace (i_uinc i) with (i_uinc r) by congruence; rewrite andb_diag; destruct (u1 =? u2), (u2 <? u1); reflexivity).
    split; [exact Pz|]. split; [repeat split; congruence|].
    assert (M2 : forall v, member r v \/ member i v -> member r' v).
    { intros v M. destruct (union_covers r i Pr PI ltac:(congruence)) as (z & E & HC). rewrite U in E. injection E as <-.
      assert (exists x, pos (i_type r) v = Some x) as [x X].
      { unfold member in M. replace (i_type i) with (i_type r) in M by congruence. destruct (pos (i_type r) v); [eauto|tauto]. }
      apply (HC v x M X). unfold lost. intros [(_ & _ & D)|(_ & _ & D)]; congruence. }
    intros x v X M. apply in_app_or in X. apply M2. destruct X as [X|[<-|[]]]; [left; eauto|right; exact M].
Qed.

(** ** Composed statements *)
Lemma roulette_selects areas table u : weights_ok areas -> finite (total areas) -> is_roulette areas table -> lenZ table <= 2 ^ 60 -> unit_draw u ->
  exists i a, roulette_value table u = Ok (Z.of_nat i) /\ nth_error areas i = Some a /\ in_area table i u /\
    member (roulette_bounds table) (Z.of_nat i) /\
    (scaled (total areas) <= 2 ^ 2096 -> forall j, in_area table j u -> j = i) /\
    ((S i < length areas)%nat \/ (scaled (total areas) <= 2 ^ 2096 /\ klt (fkey u) (fkey 0x3fefffffffffffff)) -> positive a).
Proof.
  intros (W & AO) TF TB L U. assert (NE : areas <> []) by (intros ->; cbn in W; lia).
  pose proof (r_covering areas table AO TF NE TB) as CV. destruct (search_ok table (length areas) u CV L U) as (i & E & I & A & Q).
  assert (LT : lenZ table - 1 = Z.of_nat (length areas)) by (unfold lenZ; rewrite (proj1 CV); lia).
  destruct (nth_error areas i) as [a|] eqn:EA; [|apply nth_error_None in EA; lia].
  exists i, a. unfold roulette_value. rewrite LT. split; [exact E|]. split; [exact EA|]. split; [exact A|]. split.
  - unfold member, above, below, roulette_bounds, pos. cbn. lia.
  - split; [intro S; apply Q, (r_increasing areas table AO TF TB S)|]. intro H. eapply (r_selected areas table AO TF TB); eauto.
Qed.
Lemma mixture_selects weights table u : weights_ok weights -> finite (total weights) -> is_mixture_table weights table ->
  below_one_before_last weights -> lenZ table <= 2 ^ 60 -> unit_draw u ->
  exists i a, roulette_value table u = Ok (Z.of_nat i) /\ nth_error weights i = Some a /\ in_area table i u /\
    (forall j, in_area table j u -> j = i) /\
    ((S i < length weights)%nat \/ klt (fkey u) (fkey (psum (fractions weights) (length weights - 1))) -> positive a).
Proof.
  intros (W & AO) TF TB LE L U. assert (NE : weights <> []) by (intros ->; cbn in W; lia).
  unfold below_one_before_last in LE.
  assert (CV : covering table (length weights)) by (eapply w_covering; eauto). destruct (search_ok table (length weights) u CV L U) as (i & E & I & A & Q).
  assert (LT : lenZ table - 1 = Z.of_nat (length weights)) by (unfold lenZ; rewrite (proj1 CV); lia).
  destruct (nth_error weights i) as [a|] eqn:EA; [|apply nth_error_None in EA; lia].
  exists i, a. unfold roulette_value. rewrite LT. split; [exact E|]. split; [exact EA|]. split; [exact A|].
  split; [apply Q; eapply w_increasing; eauto|]. intro H. eapply w_selected; eauto.
Qed.
Lemma areas_reported areas table n : is_roulette areas table ->
  (Z.of_nat n < lenZ areas /\ get_areas table n = Err ERR_INVALID_VALUE) \/
  (lenZ areas <= Z.of_nat n /\ exists l, get_areas table n = Ok l /\ length l = n /\
     (forall i a b, nth_error table i = Some a -> nth_error table (S i) = Some b -> nth_error l i = Some (fsub b a)) /\
     forall i, (length areas <= i < n)%nat -> nth_error l i = Some 0).
Proof.
  intros (L & _). unfold get_areas.
  assert (D : forall t, length (differences t) = (length t - 1)%nat /\
      forall i a b, nth_error t i = Some a -> nth_error t (S i) = Some b -> nth_error (differences t) i = Some (fsub b a)).
  { induction t as [|x t [IL IN]]; [split; [reflexivity|intros []; discriminate]|]. destruct t as [|y t]; [split; [reflexivity|intros [|[]]; discriminate]|].
    change (differences (x :: y :: t)) with (fsub y x :: differences (y :: t)). set (l := differences (y :: t)) in *. split; [cbn [length] in *; lia|].
    intros [|i] a b A B; cbn [nth_error] in *; [congruence|]. now apply IN. }
  destruct (D table) as [DL DN]. rewrite L in DL. cbn in DL. rewrite Nat.sub_0_r in DL. rewrite DL. unfold lenZ.
  destruct (Nat.ltb_spec n (length areas)) as [G|G]; cbn [refute bind]; [left; split; [lia|reflexivity]|].
  right. split; [lia|]. eexists. split; [reflexivity|]. split; [rewrite app_length, repeat_length; lia|]. split.
  - intros i a b A B. rewrite nth_error_app1; [now apply DN|]. assert (S i < length table)%nat by (apply nth_error_Some; congruence). lia.
  - intros i I. rewrite nth_error_app2 by lia. rewrite DL. apply nth_error_repeat. lia.
Qed.
Lemma uniform_float_bounds flog fexp lower upper quant d u : 0 <= lower < 2 ^ 64 -> 0 <= upper < 2 ^ 64 -> 0 <= quant < 2 ^ 64 ->
  finite lower -> finite upper -> finite (fsub upper lower) -> unit_draw u ->
  create_uniform flog NUM_FLOAT lower upper SCALE_LINEAR quant = Ok d ->
  (keq (fkey quant) (fkey 0) -> exists x, uniform_value fexp d u 0 = Ok x /\ 0 <= x < 2 ^ 64 /\
     kle (fkey lower) (fkey x) /\ kle (fkey x) (fkey upper) /\
     (keq (fkey lower) (fkey 0) -> 2 ^ 53 < f_mag upper -> klt (fkey x) (fkey upper))) /\
  (klt (fkey 0) (fkey quant) -> finite quant -> finite (fdiv (fsub upper lower) quant) -> exists x, uniform_value fexp d u 0 = Ok x /\ 0 <= x < 2 ^ 64 /\
     float_grid lower quant x /\ kle (fkey lower) (fkey x) /\ kle (fkey x) (fkey (fadd (fsub upper lower) lower))).
Proof.
  intros Pl Pu Pq Fl Fu FD U C. destruct (uniform_float_create flog lower upper quant) as [(A & B & Q & E)|(_ & E)]; rewrite C in E; [|discriminate].
  injection E as E. assert (LT : klt (fkey lower) (fkey upper)).
  { rewrite (finite_fkey lower Fl), (finite_fkey upper Fu) in *. cbn in *. lia. }
  split.
  - intro Z0. assert (FQ : feq quant 0 = true) by now apply feq_key. rewrite FQ in E. cbn in E.
    apply uniform_float_ok; auto. rewrite E. reflexivity.
  - intros QP Fq FR. assert (FQ : feq quant 0 = false).
    { destruct (feq quant 0) eqn:X; auto. apply feq_key in X. destruct (fkey quant), (fkey 0); cbn in *; lia. }
    rewrite FQ in E. cbn in E. eapply uniform_quant_ok; eauto.
Qed.
