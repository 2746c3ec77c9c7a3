(** What expressions mean, operator by operator, and what their serialised form is. *)
From Coq Require Import ZArith List Bool.
From Verif Require Import Base Datum CodecModel CodecSpec FloatModel FloatSpec CmpModel CmpSpec.
From Verif Require Import MapModel ParamModel ParamSpec ContextModel ContextSpec ExprModel.
Import ListNotations.
Open Scope Z_scope.

(** Operands are evaluated from left to right, the first failure is the result. *)
Definition unary (n : res datum) (f : datum -> res datum -> Prop) (r : res datum) : Prop :=
  match n with Ok x => f x r | Err _ | UB _ => r = n end.
Definition binary (l r : res datum) (f : datum -> datum -> res datum -> Prop) (o : res datum) : Prop :=
  match l with
  | Ok x => match r with Ok y => f x y o | Err _ | UB _ => o = r end
  | Err _ | UB _ => o = l
  end.
Definition flag (b : bool) : datum := mkDatum (VBool (if b then 1 else 0)) 0.
Definition inactive : datum := mkDatum VInactive 0.
Definition bad_value : res datum := Err ERR_INVALID_VALUE.

(** ** Logic: true, false and inactive *)
Inductive tri : Type := T | F | I.
Definition tri_of (d : datum) : option tri :=
  match d_val d with VBool i => Some (if i =? 0 then F else T) | VInactive => Some I | _ => None end.
Definition of_tri (t : tri) : datum := match t with T => flag true | F => flag false | I => inactive end.
Definition tri_or (a b : tri) : tri :=
  match a, b with T, _ | _, T => T | F, F => F | _, _ => I end.
Definition tri_and (a b : tri) : tri :=
  match a, b with I, _ | _, I => I | T, T => T | _, _ => F end.
Definition tri_not (a : tri) : tri := match a with T => F | F => T | I => I end.
Definition or_means (x y : datum) (o : res datum) : Prop :=
  o = match tri_of x, tri_of y with Some a, Some b => Ok (of_tri (tri_or a b)) | _, _ => bad_value end.
(** an inactive operand hides that the other one is not a truth value *)
Definition and_means (x y : datum) (o : res datum) : Prop :=
  o = match tri_of x, tri_of y with
      | Some a, Some b => Ok (of_tri (tri_and a b))
      | Some I, None | None, Some I => Ok inactive
      | _, _ => bad_value
      end.
Definition not_means (x : datum) (o : res datum) : Prop :=
  o = match tri_of x with Some a => Ok (of_tri (tri_not a)) | None => bad_value end.

(** ** Comparisons *)
(** Operands a parameter may be compared with, and all operands for other nodes *)
Definition admitted (p : option param) (y : value) : Prop :=
  match p with
  | None => True
  | Some p =>
      if (p_type p =? PORDINAL) || (p_type p =? PCATEGORICAL) then In y (map d_val (p_values p))
      else if (p_type p =? PNUMERICAL) || (p_type p =? PDISCRETE) then exists i, y = VInt i \/ y = VFloat i
      else True
  end.
(** Numbers of different types are compared as doubles; doubles are the same if they have
    the same representation. *)
Definition same (x y : value) : Prop :=
  match x, y with
  | VInt i, VFloat f | VFloat f, VInt i => keq (fkey (f_of_int i)) (fkey f)
  | _, _ => x = y
  end.
Definition comparable (x y : value) : Prop :=
  type_of x = type_of y \/
  match x, y with VInt _, VFloat _ | VFloat _, VInt _ => True | _, _ => False end.
Inductive equal_means (pl pr : option param) (x y : datum) : res datum -> Prop -> Prop :=
| em_inactive P : d_val x = VInactive \/ d_val y = VInactive -> equal_means pl pr x y (Ok inactive) P
| em_refused P : d_val x <> VInactive -> d_val y <> VInactive ->
    ~ (admitted pl (d_val y) /\ admitted pr (d_val x)) -> equal_means pl pr x y bad_value P
| em_uncomparable P : d_val x <> VInactive -> d_val y <> VInactive ->
    admitted pl (d_val y) -> admitted pr (d_val x) ->
    pl = None -> pr = None -> ~ comparable (d_val x) (d_val y) -> equal_means pl pr x y bad_value P
| em_answer (P : Prop) b : d_val x <> VInactive -> d_val y <> VInactive ->
    admitted pl (d_val y) -> admitted pr (d_val x) ->
    pl <> None \/ pr <> None \/ comparable (d_val x) (d_val y) ->
    (b = true <-> P) -> equal_means pl pr x y (Ok (flag b)) P.

(** Strict order of numbers (as doubles if the types differ) and strings (NULL first) *)
Definition below (x y : value) : Prop :=
  match x, y with
  | VInt i, VInt j => i < j
  | VFloat a, VFloat b => klt (fkey a) (fkey b)
  | VInt i, VFloat b => klt (fkey (f_of_int i)) (fkey b)
  | VFloat a, VInt j => klt (fkey a) (fkey (f_of_int j))
  | VString None, VString (Some _) => True
  | VString (Some s), VString (Some t) => lex s t
  | _, _ => False
  end.
Definition ordered_type (x y : value) : Prop :=
  match x, y with
  | VInt _, VInt _ | VFloat _, VFloat _ | VInt _, VFloat _ | VFloat _, VInt _ | VString _, VString _ => True
  | _, _ => False
  end.
(** Position in the declaration of an ordinal parameter *)
Definition position (p : param) (x : datum) (i : nat) : Prop :=
  nth_error (map d_val (p_values p)) i = Some (d_val x) /\
  forall j, nth_error (map d_val (p_values p)) j = Some (d_val x) -> j = i.
Definition is_kind (t : Z) (p : option param) : Prop := exists q, p = Some q /\ p_type q = t.
Definition rank (pl pr : option param) : option param :=
  match pl, pr with
  | Some p, _ => if p_type p =? PORDINAL then Some p
                 else match pr with Some q => if p_type q =? PORDINAL then Some q else None | None => None end
  | None, Some q => if p_type q =? PORDINAL then Some q else None
  | None, None => None
  end.
(** [lt x y] and [lt y x] are passed to the relation asked for *)
Inductive order_means (rel : Prop -> Prop -> Prop) (pl pr : option param) (x y : datum) : res datum -> Prop :=
| om_categorical : is_kind PCATEGORICAL pl \/ is_kind PCATEGORICAL pr -> order_means rel pl pr x y bad_value
| om_inactive : ~ (is_kind PCATEGORICAL pl \/ is_kind PCATEGORICAL pr) ->
    d_val x = VInactive \/ d_val y = VInactive -> order_means rel pl pr x y (Ok inactive)
| om_refused : ~ (is_kind PCATEGORICAL pl \/ is_kind PCATEGORICAL pr) ->
    d_val x <> VInactive -> d_val y <> VInactive ->
    ~ (admitted pl (d_val y) /\ admitted pr (d_val x)) -> order_means rel pl pr x y bad_value
| om_ordinal p i j b : ~ (is_kind PCATEGORICAL pl \/ is_kind PCATEGORICAL pr) ->
    d_val x <> VInactive -> d_val y <> VInactive -> admitted pl (d_val y) -> admitted pr (d_val x) ->
    rank pl pr = Some p -> position p x i -> position p y j ->
    (b = true <-> rel (i < j)%nat (j < i)%nat) -> order_means rel pl pr x y (Ok (flag b))
| om_undeclared p : ~ (is_kind PCATEGORICAL pl \/ is_kind PCATEGORICAL pr) ->
    d_val x <> VInactive -> d_val y <> VInactive -> admitted pl (d_val y) -> admitted pr (d_val x) ->
    rank pl pr = Some p ->
    ~ In (d_val x) (map d_val (p_values p)) \/ ~ In (d_val y) (map d_val (p_values p)) ->
    order_means rel pl pr x y bad_value
| om_order b : ~ (is_kind PCATEGORICAL pl \/ is_kind PCATEGORICAL pr) ->
    d_val x <> VInactive -> d_val y <> VInactive -> admitted pl (d_val y) -> admitted pr (d_val x) ->
    rank pl pr = None -> ordered_type (d_val x) (d_val y) ->
    (b = true <-> rel (below (d_val x) (d_val y)) (below (d_val y) (d_val x))) ->
    order_means rel pl pr x y (Ok (flag b))
| om_unordered : ~ (is_kind PCATEGORICAL pl \/ is_kind PCATEGORICAL pr) ->
    d_val x <> VInactive -> d_val y <> VInactive -> admitted pl (d_val y) -> admitted pr (d_val x) ->
    rank pl pr = None -> ~ ordered_type (d_val x) (d_val y) -> order_means rel pl pr x y bad_value.

(** Membership in a list *)
Definition differs (p : option param) (x : datum) (r : res datum) : Prop :=
  exists y, r = Ok y /\ admitted p (d_val y) /\ ~ same (d_val x) (d_val y).
Inductive in_means (p : option param) (x : datum) (elems : list (res datum)) : res datum -> Prop :=
| im_inactive : d_val x = VInactive -> in_means p x elems (Ok inactive)
| im_found l1 y l2 : d_val x <> VInactive -> elems = l1 ++ Ok y :: l2 -> Forall (differs p x) l1 ->
    admitted p (d_val y) -> same (d_val x) (d_val y) -> in_means p x elems (Ok (flag true))
| im_refused l1 y l2 : d_val x <> VInactive -> elems = l1 ++ Ok y :: l2 -> Forall (differs p x) l1 ->
    ~ admitted p (d_val y) -> in_means p x elems bad_value
| im_failed l1 r l2 : d_val x <> VInactive -> elems = l1 ++ r :: l2 -> Forall (differs p x) l1 ->
    (forall y, r <> Ok y) -> in_means p x elems r
| im_unknown y : d_val x <> VInactive -> Forall (differs p x) elems -> In (Ok y) elems -> d_val y = VInactive ->
    in_means p x elems (Ok inactive)
| im_absent : d_val x <> VInactive -> Forall (differs p x) elems ->
    (forall y, In (Ok y) elems -> d_val y <> VInactive) -> in_means p x elems (Ok (flag false)).

(** ** Arithmetic: exact on integers when the result is a 64 bit integer (undefined
    otherwise), IEEE on doubles *)
Definition number_of (v : value) : option (Z * bool) :=
  match v with VInt i => Some (i, true) | VFloat f => Some (f, false) | _ => None end.
Definition as_double (n : Z * bool) : Z := if snd n then f_of_int (fst n) else fst n.
Definition is_zero (n : Z * bool) : Prop := if snd n then fst n = 0 else keq (fkey (fst n)) (fkey 0).
Inductive arith_means (divides : bool) (exact : Z -> Z -> Z) (ieee : Z -> Z -> Z) (overflow : Z -> Z -> Prop) (x y : datum) : res datum -> Prop :=
| am_inactive : d_val x = VInactive \/ d_val y = VInactive -> arith_means divides exact ieee overflow x y (Ok inactive)
| am_type : d_val x <> VInactive -> d_val y <> VInactive -> number_of (d_val x) = None \/ number_of (d_val y) = None ->
    arith_means divides exact ieee overflow x y bad_value
| am_zero n m : number_of (d_val x) = Some n -> number_of (d_val y) = Some m -> divides = true -> is_zero m ->
    arith_means divides exact ieee overflow x y bad_value
| am_int i j : number_of (d_val x) = Some (i, true) -> number_of (d_val y) = Some (j, true) ->
    (divides = true -> j <> 0) -> ~ overflow i j ->
    arith_means divides exact ieee overflow x y (Ok (mkDatum (VInt (exact i j)) 0))
| am_overflow i j : number_of (d_val x) = Some (i, true) -> number_of (d_val y) = Some (j, true) ->
    (divides = true -> j <> 0) -> overflow i j -> arith_means divides exact ieee overflow x y (UB UBOverflow)
| am_float n m : number_of (d_val x) = Some n -> number_of (d_val y) = Some m -> snd n && snd m = false ->
    (divides = true -> ~ is_zero m) ->
    arith_means divides exact ieee overflow x y (Ok (mkDatum (VFloat (ieee (as_double n) (as_double m))) 0)).
Definition leaves (f : Z -> Z -> Z) (i j : Z) : Prop := ~ in_signed 64 (f i j).
(** the remainder itself fits, but the C operation is undefined with the quotient *)
Definition quotient_leaves (i j : Z) : Prop := i = INT64_MIN /\ j = -1.
Definition pos_means (x : datum) (o : res datum) : Prop :=
  o = match d_val x with VInactive => Ok inactive | VInt _ | VFloat _ => Ok x | _ => bad_value end.
Definition neg_means (x : datum) (o : res datum) : Prop :=
  match d_val x with
  | VInactive => o = Ok inactive
  | VInt i => (in_signed 64 (- i) /\ o = Ok (mkDatum (VInt (- i)) 0)) \/ (~ in_signed 64 (- i) /\ o = UB UBOverflow)
  | VFloat f => o = Ok (mkDatum (VFloat (fopp f)) 0)
  | _ => o = bad_value
  end.

(** ** Parameters occurring in an expression *)
Inductive occurs (h : Z) : expr -> Prop :=
| occ_var o : occurs h (EVar o h)
| occ_op o t nodes n : In n nodes -> occurs h n -> occurs h (EOp o t nodes).

(** the usual protocol of arrays: count only, too small, padded with NULL *)
Definition params_returned (l : list Z) (arr : option nat) (r : res (option (list Z) * nat)) : Prop :=
  match arr with
  | None => r = Ok (None, length l)
  | Some n => ((length l <= n)%nat /\ r = Ok (Some (l ++ repeat 0 (n - length l)), length l)) \/
              ((n < length l)%nat /\ r = Err ERR_INVALID_VALUE)
  end.
(** value of parameter [h] in an array of values over the parameters [A] *)
Inductive valued (A : list Z) (vs : list datum) (h : Z) : res datum -> Prop :=
| vl_value i d : nth_error A i = Some h -> nth_error vs i = Some d -> valued A vs h (Ok d)
| vl_short i : nth_error A i = Some h -> nth_error vs i = None -> valued A vs h (UB UBBounds)
| vl_foreign : ~ In h A -> valued A vs h (Err ERR_INVALID_PARAMETER).
(** [w] is [v] with perhaps less known: some values became inactive *)
Definition fades (v w : datum) : Prop := w = v \/ d_val w = VInactive.
(** Arguments of an operator: parameters, expressions and literals *)
Inductive argument (otype : Z -> option Z) (xheap : Z -> expr) (d : datum) : expr -> Prop :=
| arg_expr h : d_val d = VObject h -> otype h = Some 3 -> argument otype xheap d (xheap h)
| arg_param h o : d_val d = VObject h -> otype h = Some 2 -> o_ud o = None -> argument otype xheap d (EVar o h)
| arg_lit o : (match d_val d with VNone | VInt _ | VFloat _ | VBool _ | VString _ => True | _ => False end) -> o_ud o = None ->
    argument otype xheap d (ELit o (mkDatum (d_val d) 0)).
Definition dead_argument (otype : Z -> option Z) (d : datum) : Prop :=
  exists h, d_val d = VObject h /\ otype h = None.
Definition wrong_argument (otype : Z -> option Z) (d : datum) : Prop :=
  match d_val d with
  | VNone | VInt _ | VFloat _ | VBool _ | VString _ => False
  | VObject h => exists t, otype h = Some t /\ t <> 2 /\ t <> 3
  | _ => True
  end.

(** ** Expressions that exist: built by the constructors over the parameters [known] *)
Definition variadic (t : Z) : Prop := t = 17.
Definition takes (t : Z) (n : nat) : Prop :=
  (0 <= t <= 12 /\ n = 2%nat) \/ (13 <= t <= 15 /\ n = 1%nat) \/ (t = 16 /\ n = 2%nat) \/ t = 17.
Definition literal_value (v : value) : Prop :=
  match v with VNone | VInt _ | VFloat _ | VBool _ | VString _ => True | _ => False end.
Inductive wf_expr (known : Z -> Prop) : expr -> Prop :=
| wf_lit o d : literal_value (d_val d) -> wf_value (d_val d) -> d_flags d = 0 -> wf_expr known (ELit o d)
| wf_var o h : known h -> wf_expr known (EVar o h)
| wf_op o t nodes : takes t (length nodes) -> Forall (wf_expr known) nodes -> wf_expr known (EOp o t nodes).

(** Parameters exist as they were created and values are well formed. *)
Definition sound_world (heap : Z -> param) (jen : list Z -> Z) (values : option (list datum)) (known : Z -> Prop) : Prop :=
  (forall h, known h -> created jen (heap h)) /\ (forall vs, values = Some vs -> Forall wf_datum vs).

(** ** Evaluation of an expression over the parameters [A] (if there is a context) with
    the values [vs] *)
Definition found (A : option (list Z)) (vs : option (list datum)) (h : Z) (r : res datum) : Prop :=
  match vs, A with
  | None, _ => r = Err ERR_INVALID_VALUE
  | Some _, None => r = Err ERR_INVALID_OBJECT
  | Some vs, Some A => valued A vs h r
  end.
Definition parameter_of (heap : Z -> param) (e : expr) : option param :=
  match e with EVar _ h => Some (heap h) | _ => None end.
Definition binary_op (heap : Z -> param) (t : Z) (a b : expr) : option (datum -> datum -> res datum -> Prop) :=
  let pa := parameter_of heap a in
  let pb := parameter_of heap b in
  match t with
  | 0 => Some or_means
  | 1 => Some and_means
  | 2 => Some (fun x y o => equal_means pa pb x y o (same (d_val x) (d_val y)))
  | 3 => Some (fun x y o => equal_means pa pb x y o (~ same (d_val x) (d_val y)))
  | 4 => Some (order_means (fun lt _ => lt) pa pb)
  | 5 => Some (order_means (fun _ gt => gt) pa pb)
  | 6 => Some (order_means (fun _ gt => ~ gt) pa pb)
  | 7 => Some (order_means (fun lt _ => ~ lt) pa pb)
  | 8 => Some (arith_means false Z.add fadd (leaves Z.add))
  | 9 => Some (arith_means false Z.sub fsub (leaves Z.sub))
  | 10 => Some (arith_means false Z.mul fmul (leaves Z.mul))
  | 11 => Some (arith_means true Z.quot fdiv (leaves Z.quot))
  | 12 => Some (arith_means true Z.rem ffmod quotient_leaves)
  | _ => None
  end.
Definition unary_op (t : Z) : option (datum -> res datum -> Prop) :=
  match t with 13 => Some pos_means | 14 => Some neg_means | 15 => Some not_means | _ => None end.
Inductive evaluates (heap : Z -> param) (A : option (list Z)) (vs : option (list datum)) : expr -> res datum -> Prop :=
| ev_literal o d : evaluates heap A vs (ELit o d) (Ok d)
| ev_variable o h r : found A vs h r -> evaluates heap A vs (EVar o h) r
| ev_unary o t a m ra r : unary_op t = Some m -> evaluates heap A vs a ra -> unary ra m r ->
    evaluates heap A vs (EOp o t [a]) r
| ev_binary o t a b m ra rb r : binary_op heap t a b = Some m -> evaluates heap A vs a ra -> evaluates heap A vs b rb ->
    binary ra rb m r -> evaluates heap A vs (EOp o t [a; b]) r
| ev_in o o' a elems ra rs r : evaluates heap A vs a ra -> evaluate heap A vs elems rs ->
    unary ra (fun x => in_means (parameter_of heap a) x rs) r ->
    evaluates heap A vs (EOp o 16 [a; EOp o' 17 elems]) r
| ev_in_wrong o a b : (forall o' l, b <> EOp o' 17 l) -> evaluates heap A vs (EOp o 16 [a; b]) bad_value
| ev_list o l : evaluates heap A vs (EOp o 17 l) (Err ERR_UNSUPPORTED_OPERATION)
with evaluate (heap : Z -> param) (A : option (list Z)) (vs : option (list datum)) : list expr -> list (res datum) -> Prop :=
| ev_nil : evaluate heap A vs [] []
| ev_cons e r l rs : evaluates heap A vs e r -> evaluate heap A vs l rs -> evaluate heap A vs (e :: l) (r :: rs).
(** Answers of opposite comparisons *)
Definition opposite (r r' : res datum) : Prop :=
  (exists b, r = Ok (flag b) /\ r' = Ok (flag (negb b))) \/
  ((forall b, r <> Ok (flag b)) /\ r' = r).
(** Numbers *)
Definition is_number (v : value) : Prop := match v with VInt _ | VFloat _ => True | _ => False end.
Definition has_nan (v : value) : Prop := match v with VFloat f => fkey f = None | _ => False end.
(** comparing an operand that is not a variable of a list of declared values *)
Definition numeric (heap : Z -> param) (e : expr) : Prop :=
  forall p, parameter_of heap e = Some p -> p_type p = PNUMERICAL \/ p_type p = PDISCRETE.

(** ** Serialised form *)
Definition ud_of (e : expr) : list Z := match o_ud (xobj_of e) with Some b => b | None => [] end.
Inductive wire_expr : expr -> list Z -> Prop :=
| we_lit o d lh body u : leb128 (o_id o) lh -> wire_datum (d_val d) body -> wire_blob (ud_of (ELit o d)) u ->
    wire_expr (ELit o d) ((3 :: lh) ++ [18] ++ [0] ++ body ++ u)
| we_var o h lh body u : leb128 (o_id o) lh -> leb128 h body -> wire_blob (ud_of (EVar o h)) u ->
    wire_expr (EVar o h) ((3 :: lh) ++ [19] ++ [0] ++ body ++ u)
| we_op o t nodes lh ln body u : leb128 (o_id o) lh -> leb128 (lenZ nodes) ln -> wire_exprs nodes body ->
    wire_blob (ud_of (EOp o t nodes)) u -> wire_expr (EOp o t nodes) ((3 :: lh) ++ [t] ++ ln ++ body ++ u)
with wire_exprs : list expr -> list Z -> Prop :=
| we_nil : wire_exprs [] []
| we_cons e l a b : wire_expr e a -> wire_exprs l b -> wire_exprs (e :: l) (a ++ b).
(** What is read back: variables designate the parameters their handles are mapped to;
    empty user data is absent. *)
Definition restored_obj (o : xobj) : xobj :=
  mkObj (o_id o) (match o_ud o with Some [] => None | u => u end).
Fixpoint restored (f : Z -> Z) (e : expr) : expr :=
  match e with
  | ELit o d => ELit (restored_obj o) d
  | EVar o h => EVar (restored_obj o) (f h)
  | EOp o t nodes => EOp (restored_obj o) t (map (restored f) nodes)
  end.
(** Machine addresses, sizes and bytes *)
Inductive storable : expr -> Prop :=
| st_lit o d : in_unsigned 64 (o_id o) -> lenZ (ud_of (ELit o d)) < 2 ^ 64 -> d_val d <> VString None -> storable (ELit o d)
| st_var o h : in_unsigned 64 (o_id o) -> lenZ (ud_of (EVar o h)) < 2 ^ 64 -> in_unsigned 64 h -> storable (EVar o h)
| st_op o t nodes : in_unsigned 64 (o_id o) -> lenZ (ud_of (EOp o t nodes)) < 2 ^ 64 -> lenZ nodes < 2 ^ 64 ->
    Forall storable nodes -> storable (EOp o t nodes).
Inductive no_user_data : expr -> Prop :=
| nu_lit o d : ud_of (ELit o d) = [] -> no_user_data (ELit o d)
| nu_var o h : ud_of (EVar o h) = [] -> no_user_data (EVar o h)
| nu_op o t nodes : ud_of (EOp o t nodes) = [] -> Forall no_user_data nodes -> no_user_data (EOp o t nodes).
(** The handle map of the reader associates a living parameter [f h] to [h]. *)
Definition resolves (jen : list Z -> Z) (otype : Z -> option Z) (hm : option mstate) (f : Z -> Z) (h : Z) : Prop :=
  exists m, hm = Some m /\ d_val (map_get jen m (ccs_object h)) = VObject (f h) /\ otype (f h) = Some 2.
