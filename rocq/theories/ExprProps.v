(** Properties C07, C16-C20, C63: expressions. *)
From Coq Require Import ZArith List Bool Lia Sorting.Sorted.
From Verif Require Import Base Datum CodecModel CodecSpec FloatModel FloatSpec FloatRound CmpModel CmpSpec MapModel.
From Verif Require Import ParamModel ParamSpec ContextModel ContextSpec ExprModel ExprSpec ExprProofs ExprLemmas ExprSem ExprCodec.
Import ListNotations.
Open Scope Z_scope.

(** Examples: a space of the parameters 10 (integer in [0, 5[), 20 (ordinal 1, 0, 2) and
    30 (integer in [0, 9[) *)
Definition xo (i : Z) : xobj := mkObj i None.
Definition lit (d : datum) : expr := ELit (xo 1) d.
Definition var (h : Z) : expr := EVar (xo 2) h.
Definition op (t : Z) (l : list expr) : expr := EOp (xo 3) t l.
Definition xh (h : Z) : param :=
  if h =? 10 then mkParam PNUMERICAL [97] (ccs_int 1) (mkInterval NUM_INT 0 5 true false) 0 []
  else if h =? 20 then mkParam PORDINAL [98] (ccs_int 1) (mkInterval NUM_INT 0 3 true false) 0 [ccs_int 1; ccs_int 0; ccs_int 2]
  else mkParam PNUMERICAL [99] (ccs_int 2) (mkInterval NUM_INT 0 9 true false) 0 [].
Definition xjen (l : list Z) : Z := lenZ l.
Definition xctx : context := snd (add_run xh KConfiguration (new_context [120]) [(10, None); (20, None); (30, None)]).
Definition xvals : list datum := [ccs_int 3; ccs_int 0; ccs_inactive].
Definition xev (e : expr) : res datum := eval xh xjen (Some xctx) (Some xvals) e.
(** 1.0, 0.5, NaN, -0.0 *)
Definition f1 : Z := 4607182418800017408.
Definition fh : Z := 4602678819172646912.
Definition fnan : Z := 9221120237041090560.
Definition fmz : Z := 2 ^ 63.

(** C16: every expression evaluates to what the tables of [ExprSpec] say, in particular
    the three-valued tables of OR, AND and NOT; errors of operands propagate from left to
    right; and the tables leave no choice. *)
Theorem C16_evaluation : forall heap jen ctx A values known, sound_world heap jen values known ->
  match ctx, A with Some c, Some l => describes heap c l | None, None => True | _, _ => False end ->
  forall e, wf_expr known e -> evaluates heap A values e (eval heap jen ctx values e).
Proof. exact eval_evaluates. Qed.
Print Assumptions C16_evaluation.
Theorem C16_unambiguous : forall heap A values, (forall l, A = Some l -> NoDup l) -> forall e r r',
  evaluates heap A values e r -> evaluates heap A values e r' -> r = r'.
Proof. exact evaluates_func. Qed.
Print Assumptions C16_unambiguous.
Theorem C16_logic : forall heap jen ctx values known o a b, sound_world heap jen values known ->
  wf_expr known a -> wf_expr known b ->
  let ev := eval heap jen ctx values in
  binary (ev a) (ev b) or_means (ev (EOp o 0 [a; b])) /\
  binary (ev a) (ev b) and_means (ev (EOp o 1 [a; b])) /\
  unary (ev a) not_means (ev (EOp o 15 [a])).
Proof.
  intros heap jen ctx values known o a b SW Wa Wb. split; [|split];
  [exact (op_binary heap jen ctx values known SW o 0 a b _ Wa Wb eq_refl)|exact (op_binary heap jen ctx values known SW o 1 a b _ Wa Wb eq_refl)
  |exact (op_unary heap jen ctx values known SW o 15 a _ Wa eq_refl)].
Qed.
Print Assumptions C16_logic.
Example C16_ex :
  xev (op XOR [var 30; lit ccs_true]) = Ok ccs_true /\ xev (op XAND [lit ccs_false; var 30]) = Ok ccs_inactive /\
  xev (op XAND [var 30; lit (ccs_int 1)]) = Ok ccs_inactive /\ xev (op XOR [var 30; lit (ccs_int 1)]) = Err ERR_INVALID_VALUE /\
  xev (op XOR [lit ccs_true; var 77]) = Err ERR_INVALID_PARAMETER /\
  xev (op XNOT [op XLESS [var 10; lit (ccs_int 4)]]) = Ok ccs_false /\
  xev (op XLESS [var 20; lit (ccs_int 1)]) = Ok ccs_false /\
  xev (op XIN [var 10; op XLIST [lit (ccs_float f1); lit (ccs_int 3); var 30]]) = Ok ccs_true /\
  xev (op XIN [var 10; op XLIST [var 30; lit (ccs_int 2)]]) = Err ERR_INVALID_VALUE /\
  xev (op XIN [lit (ccs_int 3); op XLIST [var 30; lit (ccs_int 2)]]) = Ok ccs_inactive.
Proof. vm_compute. repeat split. Qed.
(** AND with a false operand is not false if the other operand is inactive *)
Theorem C16_and_false_refuted : exists a b, xev a = Ok ccs_false /\ xev b = Ok ccs_inactive /\ xev (op XAND [a; b]) <> Ok ccs_false.
Proof. exists (lit ccs_false), (var 30). vm_compute. repeat split. discriminate. Qed.
Print Assumptions C16_and_false_refuted.

(** C17: evaluation depends on the values of the parameters that occur and nothing else;
    the parameters listed are those that occur; checking a context checks them. *)
Theorem C17_dependence : forall heap jen c A vs c' A' vs' e, describes heap c A -> describes heap c' A' ->
  (forall h r r', occurs h e -> valued A vs h r -> valued A' vs' h r' -> r = r') ->
  eval heap jen (Some c) (Some vs) e = eval heap jen (Some c') (Some vs') e.
Proof. exact eval_depends. Qed.
Print Assumptions C17_dependence.
Theorem C17_parameters : forall e arr, (forall h, occurs h e -> 0 < h) ->
  exists l, StronglySorted Z.lt l /\ (forall h, In h l <-> occurs h e) /\ params_returned l arr (expr_get_parameters e arr).
Proof. exact get_parameters_spec. Qed.
Print Assumptions C17_parameters.
Theorem C17_check_context : forall heap e ctx A, (forall h, occurs h e -> 0 < h) ->
  (forall c, ctx = Some c -> describes heap c A) ->
  ((ctx = None -> forall h, ~ occurs h e) /\ (ctx <> None -> forall h, occurs h e -> In h A) /\ check_context e ctx = Ok tt) \/
  (ctx = None /\ (exists h, occurs h e) /\ check_context e ctx = Err ERR_INVALID_VALUE) \/
  (ctx <> None /\ (exists h, occurs h e /\ ~ In h A) /\ check_context e ctx = Err ERR_INVALID_PARAMETER).
Proof. exact check_context_spec. Qed.
Print Assumptions C17_check_context.
Example C17_ex : let e := op XADD [var 30; op XMULTIPLY [var 10; var 30]] in
  expr_get_parameters e (Some 3%nat) = Ok (Some [10; 30; 0], 2%nat) /\ expr_get_parameters e (Some 1%nat) = Err ERR_INVALID_VALUE /\
  check_context e (Some xctx) = Ok tt /\ check_context e None = Err ERR_INVALID_VALUE /\
  check_context (op XADD [e; var 40]) (Some xctx) = Err ERR_INVALID_PARAMETER /\
  eval xh xjen (Some xctx) (Some [ccs_int 2; ccs_true; ccs_int 4]) e = eval xh xjen (Some xctx) (Some [ccs_int 2; ccs_none; ccs_int 4]) e.
Proof. vm_compute. repeat split. Qed.

(** C18: making values inactive makes the result inactive or leaves it alone *)
Theorem C18_inactive : forall heap jen c vs vs' e v v', Forall2 fades vs vs' ->
  eval heap jen (Some c) (Some vs) e = Ok v -> eval heap jen (Some c) (Some vs') e = Ok v' -> fades v v'.
Proof. exact eval_fades. Qed.
Print Assumptions C18_inactive.
Example C18_ex : let e := op XOR [op XLESS [var 10; lit (ccs_int 4)]; op XIN [var 30; op XLIST [lit (ccs_int 7); var 10]]] in
  eval xh xjen (Some xctx) (Some [ccs_int 4; ccs_int 0; ccs_int 7]) e = Ok ccs_true /\
  eval xh xjen (Some xctx) (Some [ccs_inactive; ccs_int 0; ccs_int 7]) e = Ok ccs_true /\
  eval xh xjen (Some xctx) (Some [ccs_int 4; ccs_int 0; ccs_inactive]) e = Ok ccs_inactive.
Proof. vm_compute. repeat split. Qed.

(** C19: integer arithmetic is exact when the result fits and undefined otherwise;
    division by zero is refused; other operands are converted to doubles. *)
Theorem C19_arithmetic : forall heap jen ctx values known o a b, sound_world heap jen values known ->
  wf_expr known a -> wf_expr known b ->
  let ev := eval heap jen ctx values in
  binary (ev a) (ev b) (arith_means false Z.add fadd (leaves Z.add)) (ev (EOp o 8 [a; b])) /\
  binary (ev a) (ev b) (arith_means false Z.sub fsub (leaves Z.sub)) (ev (EOp o 9 [a; b])) /\
  binary (ev a) (ev b) (arith_means false Z.mul fmul (leaves Z.mul)) (ev (EOp o 10 [a; b])) /\
  binary (ev a) (ev b) (arith_means true Z.quot fdiv (leaves Z.quot)) (ev (EOp o 11 [a; b])) /\
  binary (ev a) (ev b) (arith_means true Z.rem ffmod quotient_leaves) (ev (EOp o 12 [a; b])) /\
  unary (ev a) pos_means (ev (EOp o 13 [a])) /\ unary (ev a) neg_means (ev (EOp o 14 [a])).
Proof.
  intros heap jen ctx values known o a b SW Wa Wb.
  pose proof (fun t m => op_binary heap jen ctx values known SW o t a b m Wa Wb) as B.
  pose proof (fun t m => op_unary heap jen ctx values known SW o t a m Wa) as U.
  split; [exact (B 8 _ eq_refl)|]. split; [exact (B 9 _ eq_refl)|]. split; [exact (B 10 _ eq_refl)|]. split; [exact (B 11 _ eq_refl)|].
  split; [exact (B 12 _ eq_refl)|]. split; [exact (U 13 _ eq_refl)|exact (U 14 _ eq_refl)].
Qed.
Print Assumptions C19_arithmetic.
(** the operations on doubles are correctly rounded, the remainder exact *)
Theorem C19_rounding : forall a b, 0 <= a < 2 ^ 64 -> 0 <= b < 2 ^ 64 -> finite a -> finite b ->
  rounds (scaled a + scaled b) 1 (fadd a b) /\ rounds (scaled a - scaled b) 1 (fsub a b) /\
  rounds (scaled a * scaled b) (2 ^ 1074) (fmul a b) /\
  (scaled b <> 0 -> rounds (scaled a * Z.sgn (scaled b) * 2 ^ 1074) (Z.abs (scaled b)) (fdiv a b) /\
                    finite (ffmod a b) /\ scaled (ffmod a b) = Z.rem (scaled a) (scaled b)).
Proof.
  intros a b Pa Pb Fa Fb. split; [exact (fadd_rounds a b Pa Pb Fa Fb)|]. split; [exact (fsub_rounds a b Pa Pb Fa Fb)|].
  split; [exact (fmul_rounds a b Pa Pb Fa Fb)|]. intro N. split; [exact (fdiv_rounds a b Pa Pb Fa Fb N)|exact (ffmod_exact a b Pa Pb Fa Fb N)].
Qed.
Print Assumptions C19_rounding.
Theorem C19_conversion : forall i, rounds (i * 2 ^ 1074) 1 (f_of_int i).
Proof. exact f_of_int_rounds. Qed.
Print Assumptions C19_conversion.
Theorem C19_rounding_unique : forall p q b b', 0 < q -> rounds p q b -> rounds p q b' -> f_mag b = f_mag b'.
Proof. intros p q b b' Q (_ & N & _) (_ & N' & _). exact (nearest_unique _ _ _ _ Q N N'). Qed.
Print Assumptions C19_rounding_unique.
Example C19_ex :
  xev (op XMODULO [lit (ccs_int (-7)); lit (ccs_int 2)]) = Ok (ccs_int (-1)) /\
  xev (op XDIVIDE [lit (ccs_int (-7)); lit (ccs_int 2)]) = Ok (ccs_int (-3)) /\
  xev (op XDIVIDE [lit (ccs_int 1); lit (ccs_float fmz)]) = Err ERR_INVALID_VALUE /\
  xev (op XMULTIPLY [var 10; lit (ccs_float fh)]) = Ok (ccs_float 4609434218613702656) /\
  xev (op XADD [var 30; lit ccs_true]) = Ok ccs_inactive /\ xev (op XADD [var 10; lit ccs_true]) = Err ERR_INVALID_VALUE.
Proof. vm_compute. repeat split. Qed.
(** Undefined behaviour is within reach of every operation on integers *)
Theorem C19_defined_refuted : forall t, 8 <= t <= 12 -> exists i j, in_signed 64 i /\ in_signed 64 j /\ j <> 0 /\
  xev (op t [lit (ccs_int i); lit (ccs_int j)]) = UB UBOverflow.
Proof.
  intros t T. assert (E : t = 8 \/ t = 9 \/ t = 10 \/ t = 11 \/ t = 12) by lia.
  destruct E as [->|[->|[->|[->|E]]]]; [exists INT64_MIN, (-1)|exists INT64_MIN, 1|exists INT64_MIN, (-1)|exists INT64_MIN, (-1)|subst; exists INT64_MIN, (-1)];
    vm_compute; repeat split; discriminate.
Qed.
Print Assumptions C19_defined_refuted.
Theorem C19_negative_refuted : exists i, in_signed 64 i /\ xev (op XNEGATIVE [lit (ccs_int i)]) = UB UBOverflow.
Proof. exists INT64_MIN. vm_compute. repeat split; discriminate. Qed.
Print Assumptions C19_negative_refuted.

(** C20: comparisons.  [<=] is the opposite of [>], [>=] of [<], [!=] of [==], with
    whatever operands *)
Theorem C20_opposite : forall heap jen ctx vs o o' a b,
  let ev t o := eval heap jen ctx vs (EOp o t [a; b]) in
  opposite (ev 5 o) (ev 6 o') /\ opposite (ev 4 o) (ev 7 o') /\ opposite (ev 2 o) (ev 3 o').
Proof.
  intros heap jen ctx vs o o' a b. split; [exact (proj1 (opposite_order heap jen ctx vs o o' a b))|].
  split; [exact (proj2 (opposite_order heap jen ctx vs o o' a b))|exact (opposite_equal heap jen ctx vs o o' a b)].
Qed.
Print Assumptions C20_opposite.
(** numbers: exactly one of [<], [==], [>], except with NaN and for zeros of two signs *)
Theorem C20_trichotomy : forall heap jen ctx vs known a b x y, sound_world heap jen vs known ->
  wf_expr known a -> wf_expr known b -> numeric heap a -> numeric heap b ->
  eval heap jen ctx vs a = Ok x -> eval heap jen ctx vs b = Ok y -> is_number (d_val x) -> is_number (d_val y) ->
  forall o, ~ has_nan (d_val x) -> ~ has_nan (d_val y) ->
  (forall f g, d_val x = VFloat f -> d_val y = VFloat g -> keq (fkey f) (fkey g) -> f = g) ->
  let ev t := eval heap jen ctx vs (EOp o t [a; b]) in
  exists l e g, ((l, e, g) = (true, false, false) \/ (l, e, g) = (false, true, false) \/ (l, e, g) = (false, false, true)) /\
  ev 4 = Ok (flag l) /\ ev 2 = Ok (flag e) /\ ev 5 = Ok (flag g) /\
  ev 6 = Ok (flag (l || e)) /\ ev 7 = Ok (flag (g || e)) /\ ev 3 = Ok (flag (negb e)).
Proof. exact trichotomy. Qed.
Print Assumptions C20_trichotomy.
Theorem C20_nan : forall heap jen ctx vs known a b x y, sound_world heap jen vs known ->
  wf_expr known a -> wf_expr known b -> numeric heap a -> numeric heap b ->
  eval heap jen ctx vs a = Ok x -> eval heap jen ctx vs b = Ok y -> is_number (d_val x) -> is_number (d_val y) ->
  forall o, has_nan (d_val x) \/ has_nan (d_val y) ->
  let ev t := eval heap jen ctx vs (EOp o t [a; b]) in
  exists e, (e = true <-> d_val x = d_val y) /\ ev 4 = Ok (flag false) /\ ev 2 = Ok (flag e) /\ ev 5 = Ok (flag false) /\
  ev 6 = Ok (flag true) /\ ev 7 = Ok (flag true) /\ ev 3 = Ok (flag (negb e)).
Proof. exact with_nan. Qed.
Print Assumptions C20_nan.
Theorem C20_signed_zeros : forall heap jen ctx vs known a b x y, sound_world heap jen vs known ->
  wf_expr known a -> wf_expr known b -> numeric heap a -> numeric heap b ->
  eval heap jen ctx vs a = Ok x -> eval heap jen ctx vs b = Ok y -> is_number (d_val x) -> is_number (d_val y) ->
  forall o f g, d_val x = VFloat f -> d_val y = VFloat g -> keq (fkey f) (fkey g) -> f <> g ->
  let ev t := eval heap jen ctx vs (EOp o t [a; b]) in
  ev 4 = Ok (flag false) /\ ev 2 = Ok (flag false) /\ ev 5 = Ok (flag false) /\
  ev 6 = Ok (flag true) /\ ev 7 = Ok (flag true) /\ ev 3 = Ok (flag true).
Proof. exact signed_zeros. Qed.
Print Assumptions C20_signed_zeros.
(** an integer and a double: the strict comparisons never lie, and all are exact for
    integers up to 2^53 *)
Theorem C20_mixed : forall heap jen ctx vs known a b x y, sound_world heap jen vs known ->
  wf_expr known a -> wf_expr known b -> numeric heap a -> numeric heap b ->
  eval heap jen ctx vs a = Ok x -> eval heap jen ctx vs b = Ok y -> is_number (d_val x) -> is_number (d_val y) ->
  forall o i f, d_val x = VInt i -> d_val y = VFloat f -> 0 <= f < 2 ^ 64 -> finite f ->
  let ev t := eval heap jen ctx vs (EOp o t [a; b]) in
  exists l e g, ev 4 = Ok (flag l) /\ ev 2 = Ok (flag e) /\ ev 5 = Ok (flag g) /\
  (l = true -> i * 2 ^ 1074 < scaled f) /\ (g = true -> scaled f < i * 2 ^ 1074) /\
  (Z.abs i <= 2 ^ 53 -> (l = true <-> i * 2 ^ 1074 < scaled f) /\ (g = true <-> scaled f < i * 2 ^ 1074) /\ (e = true <-> i * 2 ^ 1074 = scaled f)).
Proof. exact mixed. Qed.
Print Assumptions C20_mixed.
Theorem C20_mixed_swapped : forall heap jen ctx vs known a b x y, sound_world heap jen vs known ->
  wf_expr known a -> wf_expr known b -> numeric heap a -> numeric heap b ->
  eval heap jen ctx vs a = Ok x -> eval heap jen ctx vs b = Ok y -> is_number (d_val x) -> is_number (d_val y) ->
  forall o i f, d_val x = VFloat f -> d_val y = VInt i -> 0 <= f < 2 ^ 64 -> finite f ->
  let ev t := eval heap jen ctx vs (EOp o t [a; b]) in
  exists l e g, ev 4 = Ok (flag l) /\ ev 2 = Ok (flag e) /\ ev 5 = Ok (flag g) /\
  (l = true -> scaled f < i * 2 ^ 1074) /\ (g = true -> i * 2 ^ 1074 < scaled f) /\
  (Z.abs i <= 2 ^ 53 -> (l = true <-> scaled f < i * 2 ^ 1074) /\ (g = true <-> i * 2 ^ 1074 < scaled f) /\ (e = true <-> i * 2 ^ 1074 = scaled f)).
Proof. exact mixed'. Qed.
Print Assumptions C20_mixed_swapped.
Example C20_ex :
  xev (op XLESS_OR_EQUAL [var 10; lit (ccs_float fh)]) = Ok ccs_false /\ xev (op XEQUAL [lit (ccs_int 1); lit (ccs_float f1)]) = Ok ccs_true /\
  xev (op XLESS_OR_EQUAL [lit (ccs_float fnan); lit (ccs_int 1)]) = Ok ccs_true /\ xev (op XEQUAL [lit (ccs_float 0); lit (ccs_float fmz)]) = Ok ccs_false.
Proof. vm_compute. repeat split. Qed.
(** above 2^53 an integer may be equal to a double of another value *)
Theorem C20_mixed_equal_refuted : exists i f, in_signed 64 i /\ finite f /\
  xev (op XEQUAL [lit (ccs_int i); lit (ccs_float f)]) = Ok ccs_true /\ i * 2 ^ 1074 <> scaled f.
Proof. exists (2 ^ 53 + 1), (f_of_int (2 ^ 53)). vm_compute. repeat split; discriminate. Qed.
Print Assumptions C20_mixed_equal_refuted.
(** [<=] is not the disjunction of [<] and [==] for zeros of two signs *)
Theorem C20_zeros_refuted : exists a b, xev (op XLESS_OR_EQUAL [a; b]) = Ok ccs_true /\ xev (op XLESS [a; b]) = Ok ccs_false /\
  xev (op XEQUAL [a; b]) = Ok ccs_false /\ xev (op XGREATER [a; b]) = Ok ccs_false.
Proof. exists (lit (ccs_float 0)), (lit (ccs_float fmz)). vm_compute. repeat split. Qed.
Print Assumptions C20_zeros_refuted.

(** C63: expressions are created exactly from the right number of literals, parameters and
    expressions, as the tree of these; the first wrong argument decides of the error. *)
Theorem C63_create : forall otype xheap id ids t l, Forall wf_datum l ->
  (takes t (length l) /\ (exists es, Forall2 (argument otype xheap) l es /\
      create_expression otype xheap id ids t l = Ok (EOp (mkObj id None) t es))) \/
  (~ takes t (length l) /\ create_expression otype xheap id ids t l = Err ERR_INVALID_VALUE) \/
  (takes t (length l) /\ exists l1 d l2, l = l1 ++ d :: l2 /\ Forall (fun d => ~ dead_argument otype d /\ ~ wrong_argument otype d) l1 /\
    ((dead_argument otype d /\ create_expression otype xheap id ids t l = Err ERR_INVALID_OBJECT) \/
     (wrong_argument otype d /\ create_expression otype xheap id ids t l = Err ERR_INVALID_VALUE))).
Proof. exact create_spec. Qed.
Print Assumptions C63_create.
Theorem C63_created_well_formed : forall otype xheap (known : Z -> Prop) id ids t l e, Forall wf_datum l ->
  (forall h, otype h = Some 2 -> known h) -> (forall h, otype h = Some 3 -> wf_expr known (xheap h)) ->
  create_expression otype xheap id ids t l = Ok e -> wf_expr known e.
Proof. exact create_wf. Qed.
Print Assumptions C63_created_well_formed.
Definition xot (h : Z) : option Z := if h =? 10 then Some 2 else if h =? 50 then Some 3 else if h =? 60 then Some 13 else None.
Definition xxh (h : Z) : expr := op XNOT [var 10].
Example C63_ex :
  let cr := create_expression xot xxh 3 (fun i => Z.of_nat i + 1) in
  cr XADD [ccs_int 1; ccs_object 10] = Ok (op XADD [lit (ccs_int 1); var 10]) /\
  cr XOR [ccs_object 50; mkDatum (VBool 1) 8] = Ok (op XOR [op XNOT [var 10]; ELit (xo 2) ccs_true]) /\
  cr XADD [ccs_int 1] = Err ERR_INVALID_VALUE /\ cr XLIST [] = Ok (op XLIST []) /\
  cr XADD [ccs_object 11; ccs_inactive] = Err ERR_INVALID_OBJECT /\ cr XADD [ccs_inactive; ccs_object 11] = Err ERR_INVALID_VALUE /\
  cr XADD [ccs_object 60; ccs_int 1] = Err ERR_INVALID_VALUE.
Proof. vm_compute. repeat split. Qed.

(** C07: the serialised form of an expression is what is written, has the announced size,
    and reads back as the same tree over the parameters of the reader. *)
Theorem C07_format_exists : forall known e, wf_expr known e -> storable e -> exists bs, wire_expr e bs.
Proof. exact wire_expr_exists. Qed.
Print Assumptions C07_format_exists.
Theorem C07_written : forall le known e, wf_expr known e -> storable e -> forall bs, wire_expr e bs ->
  encodes (ser_expr le e) bs /\ size_expr e = Ok (lenZ bs).
Proof. exact expr_size_encodes. Qed.
Print Assumptions C07_written.
Theorem C07_read : forall le jen otype hm f known e bs, wf_expr known e -> storable e ->
  (forall h, occurs h e -> resolves jen otype hm f h) -> wire_expr e bs ->
  (forall tl n, lenZ bs <= n <= lenZ (bs ++ tl) -> n < 2 ^ 64 ->
    deser_expression le jen otype hm (mkR (bs ++ tl) n) = Ok (restored f e, mkR tl (n - lenZ bs))) /\
  (no_user_data e -> decodes (deser_expression le jen otype hm) (restored f e) bs).
Proof. exact expression_reads. Qed.
Print Assumptions C07_read.
Definition xmap : mstate := mkMap [(ccs_object 10, ccs_object 110)] (fun _ => 1).
Example C07_ex : let e := op XIN [var 10; EOp (mkObj 300 (Some [7; 8])) XLIST [lit (ccs_string (Some [104; 105])); op XNEGATIVE [lit (ccs_float f1)]]] in
  match ser_expr true e (mkW [] (repeat 0 64) 64) with
  | Ok s => size_expr e = Ok (lenZ (w_done s)) /\
            deser_expression true xjen (fun _ => Some 2) (Some xmap) (mkR (w_done s) (lenZ (w_done s))) =
            Ok (op XIN [var 110; EOp (mkObj 300 (Some [7; 8])) XLIST [lit (ccs_string (Some [104; 105])); op XNEGATIVE [lit (ccs_float f1)]]], mkR [] 0)
  | _ => False
  end.
Proof. vm_compute. repeat split. Qed.
