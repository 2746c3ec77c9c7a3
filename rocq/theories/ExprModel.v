(** Expressions: creation, evaluation, parameters, serialisation.  An expression is
    immutable, so that a node shared by several parents is the same as several copies.
    Pointers to results are assumed non-NULL and allocation successful. *)
From Coq Require Import ZArith List Bool.
From Verif Require Import Base Datum CodecModel FloatModel CmpModel MapModel ParamModel ContextModel.
Import ListNotations.
Open Scope Z_scope.

(** enum ccs_expression_type_e: include/cconfigspace/expression.h 19-64 *)
Definition XOR := 0.
Definition XAND := 1.
Definition XEQUAL := 2.
Definition XNOT_EQUAL := 3.
Definition XLESS := 4.
Definition XGREATER := 5.
Definition XLESS_OR_EQUAL := 6.
Definition XGREATER_OR_EQUAL := 7.
Definition XADD := 8.
Definition XSUBSTRACT := 9.
Definition XMULTIPLY := 10.
Definition XDIVIDE := 11.
Definition XMODULO := 12.
Definition XPOSITIVE := 13.
Definition XNEGATIVE := 14.
Definition XNOT := 15.
Definition XIN := 16.
Definition XLIST := 17.
Definition XLITERAL := 18.
Definition XVARIABLE := 19.
Definition XTYPE_MAX := 20.
(** ccs_expression_arity: src/expression.c 46-57 *)
Definition arity (t : Z) : Z :=
  nth (Z.to_nat t) [2; 2; 2; 2; 2; 2; 2; 2; 2; 2; 2; 2; 2; 1; 1; 1; 2; -1; 0; 0] (-1).

(** struct _ccs_expression_data_s and variants: src/expression_internal.h 8-50.  Each
    node is an object with an address [o_id] and what its user data serialises to. *)
Record xobj : Type := mkObj { o_id : Z; o_ud : option (list Z) }.
Inductive expr : Type :=
| ELit (o : xobj) (d : datum)
| EVar (o : xobj) (h : Z)
| EOp (o : xobj) (t : Z) (nodes : list expr).
Definition xobj_of (e : expr) : xobj := match e with ELit o _ | EVar o _ | EOp o _ _ => o end.
Definition xtype (e : expr) : Z := match e with ELit _ _ => XLITERAL | EVar _ _ => XVARIABLE | EOp _ t _ => t end.
Definition xnodes (e : expr) : list expr := match e with EOp _ _ l => l | _ => [] end.

(** ** Creation *)
Definition literal_type (d : datum) : bool :=
  (TYPE_NONE <=? type_of (d_val d)) && (type_of (d_val d) <=? TYPE_STRING).
(** ccs_create_literal: src/expression.c 1384-1426; strings are copied *)
Definition create_literal (id : Z) (d : datum) : res expr :=
  do _ <- refute (negb (literal_type d)) ERR_INVALID_VALUE;
  Ok (ELit (mkObj id None) (mkDatum (d_val d) FLAG_DEFAULT)).
Section Create.
  (** type of the live object at an address, and the expression there *)
  Variable otype : Z -> option Z.
  Variable xheap : Z -> expr.
  (** ccs_create_variable: src/expression.c 1428-1458 *)
  Definition create_variable (id h : Z) : res expr :=
    match otype h with
    | Some t => if t =? OBJ_PARAMETER then Ok (EVar (mkObj id None) h) else Err ERR_INVALID_OBJECT
    | None => Err ERR_INVALID_OBJECT
    end.
  (** ccs_create_expression: src/expression.c 1460-1553.  [ids] are the addresses of the
      nodes that are allocated. *)
  Definition check_node (d : datum) : res unit :=
    match d_val d with
    | VObject h =>
        match otype h with
        | None => Err ERR_INVALID_OBJECT
        | Some t => refute (negb (t =? OBJ_PARAMETER) && negb (t =? OBJ_EXPRESSION)) ERR_INVALID_VALUE
        end
    | _ => refute (negb (literal_type d)) ERR_INVALID_VALUE
    end.
  Definition make_node (id : Z) (d : datum) : res expr :=
    match d_val d with
    | VObject h =>
        match otype h with
        | None => Err ERR_INVALID_OBJECT
        | Some t => if t =? OBJ_EXPRESSION then Ok (xheap h) else create_variable id h
        end
    | _ => create_literal id d
    end.
  Fixpoint check_nodes (l : list datum) : res unit :=
    match l with [] => Ok tt | d :: l' => do _ <- check_node d; check_nodes l' end.
  Fixpoint make_nodes (ids : nat -> Z) (i : nat) (l : list datum) : res (list expr) :=
    match l with
    | [] => Ok []
    | d :: l' => do e <- make_node (ids i) d; do es <- make_nodes ids (S i) l'; Ok (e :: es)
    end.
  Definition check_arity (t : Z) (n : Z) : res unit :=
    do _ <- refute ((t <? XOR) || (XLIST <? t)) ERR_INVALID_VALUE;
    refute ((0 <=? arity t) && negb (n =? arity t)) ERR_INVALID_VALUE.
  Definition create_expression (id : Z) (ids : nat -> Z) (t : Z) (l : list datum) : res expr :=
    do _ <- check_arity t (lenZ l);
    do _ <- check_nodes l;
    do es <- make_nodes ids 0 l;
    Ok (EOp (mkObj id None) t es).
End Create.

(** ** Evaluation *)
Definition is_inactive (d : datum) : bool := type_of (d_val d) =? TYPE_INACTIVE.
Definition is_bool (d : datum) : bool := type_of (d_val d) =? TYPE_BOOL.
Definition bool_of (b : bool) : datum := if b then ccs_true else ccs_false.
(** value.i, used when the type is BOOL *)
Definition truth (d : datum) : bool := match d_val d with VBool i => negb (i =? 0) | _ => false end.

(** _ccs_expr_or_eval: src/expression.c 251-286 *)
Definition or_eval (l r : res datum) : res datum :=
  do lv <- l;
  do rv <- r;
  do _ <- refute (negb (is_bool lv) && negb (is_inactive lv)) ERR_INVALID_VALUE;
  do _ <- refute (negb (is_bool rv) && negb (is_inactive rv)) ERR_INVALID_VALUE;
  if is_bool lv && truth lv then Ok ccs_true
  else if is_bool rv && truth rv then Ok ccs_true
  else if is_inactive lv then Ok ccs_inactive
  else if is_inactive rv then Ok ccs_inactive
  else Ok ccs_false.
(** _ccs_expr_and_eval: 293-311 *)
Definition and_eval (l r : res datum) : res datum :=
  do lv <- l;
  do rv <- r;
  if is_inactive lv then Ok ccs_inactive
  else if is_inactive rv then Ok ccs_inactive
  else
    do _ <- refute (negb (is_bool lv) || negb (is_bool rv)) ERR_INVALID_VALUE;
    Ok (bool_of (truth lv && truth rv)).
(** _ccs_expr_not_eval: 1015-1034 *)
Definition not_eval (n : res datum) : res datum :=
  do node <- n;
  if is_inactive node then Ok ccs_inactive
  else
    do _ <- refute (negb (is_bool node)) ERR_INVALID_VALUE;
    Ok (if truth node then ccs_false else ccs_true).

(** _ccs_datum_test_equal_generic: 353-388.  Returns (comparable, equal).  Comparing an
    integer with a double converts the integer. *)
Definition test_equal (a b : datum) : bool * bool :=
  match d_val a, d_val b with
  | VString s, VString t => (true, cmp_strings s t =? 0)
  | VNone, VNone => (true, true)
  | VInactive, VInactive => (true, true)
  | VInt i, VFloat f => (true, feq (f_of_int i) f)
  | VFloat f, VInt i => (true, feq f (f_of_int i))
  | x, y => if type_of x =? type_of y then (true, value_word x =? value_word y) else (false, false)
  end.
(** _ccs_datum_cmp_generic: 390-433 *)
Definition cmp3 (lt gt : bool) : Z := if lt then -1 else if gt then 1 else 0.
Definition cmp_generic (a b : datum) : res Z :=
  match d_val a, d_val b with
  | VString s, VString t => Ok (cmp_strings s t)
  | VInt i, VInt j => Ok (cmp3 (i <? j) (i >? j))
  | VFloat x, VFloat y => Ok (cmp3 (flt x y) (fgt x y))
  | VInt i, VFloat y => Ok (cmp3 (flt (f_of_int i) y) (fgt (f_of_int i) y))
  | VFloat x, VInt j => Ok (cmp3 (flt x (f_of_int j)) (fgt x (f_of_int j)))
  | _, _ => Err ERR_INVALID_VALUE
  end.

Definition int_result (i : Z) : res datum :=
  if (INT64_MIN <=? i) && (i <=? INT64_MAX) then Ok (ccs_int i) else UB UBOverflow.
(** _ccs_expr_add_eval and following: 750-962.  [fi] is the integer operation, [ff] the
    floating point one; division and modulo refuse a zero divisor; in C the quotient and
    remainder of the minimal integer by -1 overflow. *)
Definition arith_eval (nonzero : bool) (fi : Z -> Z -> res datum) (ff : Z -> Z -> Z) (l r : res datum) : res datum :=
  do lv <- l;
  do rv <- r;
  if is_inactive lv then Ok ccs_inactive
  else if is_inactive rv then Ok ccs_inactive
  else match d_val lv, d_val rv with
       | VInt i, VInt j => do _ <- refute (nonzero && (j =? 0)) ERR_INVALID_VALUE; fi i j
       | VInt i, VFloat y => do _ <- refute (nonzero && feq y 0) ERR_INVALID_VALUE; Ok (ccs_float (ff (f_of_int i) y))
       | VFloat x, VInt j => do _ <- refute (nonzero && (j =? 0)) ERR_INVALID_VALUE; Ok (ccs_float (ff x (f_of_int j)))
       | VFloat x, VFloat y => do _ <- refute (nonzero && feq y 0) ERR_INVALID_VALUE; Ok (ccs_float (ff x y))
       | _, _ => Err ERR_INVALID_VALUE
       end.
Definition int_quot (i j : Z) : res datum := int_result (Z.quot i j).
Definition int_rem (i j : Z) : res datum :=
  if (i =? INT64_MIN) && (j =? -1) then UB UBOverflow else Ok (ccs_int (Z.rem i j)).
Definition add_eval := arith_eval false (fun i j => int_result (i + j)) fadd.
Definition substract_eval := arith_eval false (fun i j => int_result (i - j)) fsub.
Definition multiply_eval := arith_eval false (fun i j => int_result (i * j)) fmul.
Definition divide_eval := arith_eval true int_quot fdiv.
Definition modulo_eval := arith_eval true int_rem ffmod.
(** _ccs_expr_positive_eval, _negative_eval: 969-1013 *)
Definition positive_eval (n : res datum) : res datum :=
  do node <- n;
  if is_inactive node then Ok ccs_inactive
  else match d_val node with VInt _ | VFloat _ => Ok node | _ => Err ERR_INVALID_VALUE end.
Definition negative_eval (n : res datum) : res datum :=
  do node <- n;
  if is_inactive node then Ok ccs_inactive
  else match d_val node with
       | VInt i => int_result (- i)
       | VFloat x => Ok (ccs_float (fopp x))
       | _ => Err ERR_INVALID_VALUE
       end.

Section Eval.
  Variable heap : Z -> param.
  Variable jen : list Z -> Z.
  Variable ctx : option context.
  Variable values : option (list datum).

  (** _ccs_expr_variable_eval: 1295-1310 with ccs_context_get_parameter_index
      (src/context.c 10-20) *)
  Definition var_eval (h : Z) : res datum :=
    match values with
    | None => Err ERR_INVALID_VALUE
    | Some vs =>
        match ctx with
        | None => Err ERR_INVALID_OBJECT
        | Some c => do i <- get_index c h;
                    match nth_error vs i with Some d => Ok d | None => UB UBBounds end
        end
    end.

  (** the parameter of a variable node: _ccs_expr_node_eval with [ht]: 209-224 *)
  Definition node_param (e : expr) : option param :=
    match e with EVar _ h => Some (heap h) | _ => None end.
  Definition is_ptype (p : option param) (t : Z) : bool :=
    match p with Some p => p_type p =? t | None => false end.
  (** CHECK_PARAMETERS: 325-339 *)
  Definition check_parameters (p : option param) (v : datum) : res unit :=
    match p with
    | None => Ok tt
    | Some p =>
        if (p_type p =? PORDINAL) || (p_type p =? PCATEGORICAL) then
          refute (negb (check_value jen p v)) ERR_INVALID_VALUE
        else if (p_type p =? PNUMERICAL) || (p_type p =? PDISCRETE) then
          refute (negb (type_of (d_val v) =? TYPE_INT) && negb (type_of (d_val v) =? TYPE_FLOAT)) ERR_INVALID_VALUE
        else Ok tt
    end.
  (** _ccs_expr_equal_eval, _not_equal_eval: 435-498 *)
  Definition equal_eval (neg : bool) (pl pr : option param) (l r : res datum) : res datum :=
    do lv <- l;
    do rv <- r;
    if is_inactive lv then Ok ccs_inactive
    else if is_inactive rv then Ok ccs_inactive
    else
      do _ <- check_parameters pl rv;
      do _ <- check_parameters pr lv;
      let (valid, equal) := test_equal lv rv in
      do _ <- refute (match pl, pr with None, None => negb valid | _, _ => false end) ERR_INVALID_VALUE;
      Ok (bool_of (if neg then negb equal else equal)).
  (** _ccs_expr_less_eval, greater, less_or_equal, greater_or_equal: 505-698; [test] on
      the sign of the comparison *)
  Definition order_eval (test : Z -> bool) (pl pr : option param) (l r : res datum) : res datum :=
    do lv <- l;
    do rv <- r;
    do _ <- refute (is_ptype pl PCATEGORICAL || is_ptype pr PCATEGORICAL) ERR_INVALID_VALUE;
    if is_inactive lv then Ok ccs_inactive
    else if is_inactive rv then Ok ccs_inactive
    else
      do _ <- check_parameters pl rv;
      do _ <- check_parameters pr lv;
      match pl, pr with
      | Some p, _ =>
          if p_type p =? PORDINAL then do c <- ordinal_compare jen p lv rv; Ok (bool_of (test c))
          else match pr with
               | Some q => if p_type q =? PORDINAL then do c <- ordinal_compare jen q lv rv; Ok (bool_of (test c))
                           else do c <- cmp_generic lv rv; Ok (bool_of (test c))
               | None => do c <- cmp_generic lv rv; Ok (bool_of (test c))
               end
      | None, Some q =>
          if p_type q =? PORDINAL then do c <- ordinal_compare jen q lv rv; Ok (bool_of (test c))
          else do c <- cmp_generic lv rv; Ok (bool_of (test c))
      | None, None => do c <- cmp_generic lv rv; Ok (bool_of (test c))
      end.
  (** _ccs_expr_in_eval: 705-743 *)
  Fixpoint in_loop (p : option param) (lv : datum) (rs : list (res datum)) (inactive : bool) : res datum :=
    match rs with
    | [] => Ok (if inactive then ccs_inactive else ccs_false)
    | r :: rs' =>
        do rv <- r;
        do _ <- check_parameters p rv;
        if snd (test_equal lv rv) then Ok ccs_true
        else in_loop p lv rs' (inactive || is_inactive rv)
    end.
  Definition in_eval (p : option param) (l : res datum) (rs : list (res datum)) : res datum :=
    do lv <- l;
    if is_inactive lv then Ok ccs_inactive else in_loop p lv rs false.

  (** _ccs_expression_ops_broker and ccs_expression_eval: 1317-1382, 1579-1591.  The
      wrong number of nodes is a read outside of the array of nodes. *)
  Fixpoint eval (e : expr) : res datum :=
    match e with
    | ELit _ d => Ok d
    | EVar _ h => var_eval h
    | EOp _ t nodes =>
        if t =? XLIST then Err ERR_UNSUPPORTED_OPERATION
        else if t =? XIN then
          match nodes with
          | l :: EOp _ t2 elems :: _ =>
              if t2 =? XLIST then in_eval (node_param l) (eval l) (map eval elems) else Err ERR_INVALID_VALUE
          | _ :: _ :: _ => Err ERR_INVALID_VALUE
          | _ => UB UBBounds
          end
        else match nodes with
             | a :: rest =>
                 if t =? XPOSITIVE then positive_eval (eval a)
                 else if t =? XNEGATIVE then negative_eval (eval a)
                 else if t =? XNOT then not_eval (eval a)
                 else match rest with
                      | b :: _ =>
                          let pl := node_param a in
                          let pr := node_param b in
                          if t =? XOR then or_eval (eval a) (eval b)
                          else if t =? XAND then and_eval (eval a) (eval b)
                          else if t =? XEQUAL then equal_eval false pl pr (eval a) (eval b)
                          else if t =? XNOT_EQUAL then equal_eval true pl pr (eval a) (eval b)
                          else if t =? XLESS then order_eval (fun c => c <? 0) pl pr (eval a) (eval b)
                          else if t =? XGREATER then order_eval (fun c => c >? 0) pl pr (eval a) (eval b)
                          else if t =? XLESS_OR_EQUAL then order_eval (fun c => c <=? 0) pl pr (eval a) (eval b)
                          else if t =? XGREATER_OR_EQUAL then order_eval (fun c => c >=? 0) pl pr (eval a) (eval b)
                          else if t =? XADD then add_eval (eval a) (eval b)
                          else if t =? XSUBSTRACT then substract_eval (eval a) (eval b)
                          else if t =? XMULTIPLY then multiply_eval (eval a) (eval b)
                          else if t =? XDIVIDE then divide_eval (eval a) (eval b)
                          else if t =? XMODULO then modulo_eval (eval a) (eval b)
                          else UB UBBounds
                      | [] => UB UBBounds
                      end
             | [] => UB UBBounds
             end
    end.
  (** ccs_expression_list_eval_node: 1626-1649 *)
  Definition list_eval_node (e : expr) (i : nat) : res datum :=
    do _ <- refute (negb (xtype e =? XLIST)) ERR_INVALID_EXPRESSION;
    match nth_error (xnodes e) i with Some n => eval n | None => Err ERR_OUT_OF_BOUNDS end.
End Eval.

(** ccs_expression_get_nodes: 1603-1624; handle 0 is NULL *)
Definition get_nodes (e : expr) (arr : option nat) : res (option (list (option expr)) * nat) :=
  let count := length (xnodes e) in
  match arr with
  | None => Ok (None, count)
  | Some n => do _ <- refute (n <? count)%nat ERR_INVALID_VALUE;
              Ok (Some (map Some (xnodes e) ++ repeat None (n - count)), count)
  end.
(** ccs_literal_get_value, ccs_variable_get_parameter: 1661-1692 *)
Definition literal_get_value (e : expr) : res datum :=
  match e with ELit _ d => Ok d | _ => Err ERR_INVALID_EXPRESSION end.
Definition variable_get_parameter (e : expr) : res Z :=
  match e with EVar _ h => Ok h | _ => Err ERR_INVALID_EXPRESSION end.

(** ** Parameters of an expression *)
(** _get_parameters: 1698-1711 *)
Fixpoint collect_params (e : expr) : list Z :=
  match e with
  | ELit _ _ => []
  | EVar _ h => [h]
  | EOp _ _ nodes => flat_map collect_params nodes
  end.
(** utarray_sort with _parameter_sort: 1720-1726; equal addresses cannot be told apart,
    so that any sort gives the same array *)
Fixpoint insert (h : Z) (l : list Z) : list Z :=
  match l with [] => [h] | x :: l' => if h <=? x then h :: l else x :: insert h l' end.
Definition sort (l : list Z) : list Z := fold_right insert [] l.
(** the loop that skips repetitions: 1743-1751, 1762-1767 *)
Fixpoint distinct (previous : Z) (l : list Z) : list Z :=
  match l with
  | [] => []
  | h :: l' => if h =? previous then distinct previous l' else h :: distinct h l'
  end.
(** ccs_expression_get_parameters: 1728-1779 *)
Definition expr_get_parameters (e : expr) (arr : option nat) : res (option (list Z) * nat) :=
  let l := distinct 0 (sort (collect_params e)) in
  match arr with
  | None => Ok (None, length l)
  | Some n => do _ <- refute (n <? length l)%nat ERR_INVALID_VALUE;
              Ok (Some (l ++ repeat 0 (n - length l)), length l)
  end.
(** ccs_expression_check_context: 1781-1812 *)
Fixpoint check_all (c : context) (l : list Z) : res unit :=
  match l with [] => Ok tt | h :: l' => do _ <- get_index c h; check_all c l' end.
Definition check_context (e : expr) (ctx : option context) : res unit :=
  let l := sort (collect_params e) in
  match l, ctx with
  | [], _ => Ok tt
  | _, None => Err ERR_INVALID_VALUE
  | _, Some c => check_all c (distinct 0 l)
  end.

(** ** Serialisation: src/expression.c 104-205, 1062-1162, 1190-1293 *)
Section Ser.
  Variable le : bool.
  Fixpoint ser_expr (e : expr) (s : wstate) : res wstate :=
    do s <- ser_object_internal OBJ_EXPRESSION (o_id (xobj_of e)) s;
    do s <- ser_enum (xtype e) s;
    do s <- ser_size (lenZ (xnodes e)) s;
    do s <- match e with
            | ELit _ d => ser_datum le d s
            | EVar _ h => ser_object h s
            | EOp _ _ nodes =>
                (fix go (l : list expr) (s : wstate) : res wstate :=
                   match l with [] => Ok s | n :: l' => do s <- ser_expr n s; go l' s end) nodes s
            end;
    ser_user_data (o_ud (xobj_of e)) s.
  Fixpoint size_expr (e : expr) : res Z :=
    do n <- match e with
            | ELit _ d => size_datum d
            | EVar _ h => Ok (size_object h)
            | EOp _ _ nodes =>
                (fix go (l : list expr) : res Z :=
                   match l with [] => Ok 0 | n :: l' => do a <- size_expr n; do b <- go l'; Ok (a + b) end) nodes
            end;
    Ok (size_object_internal OBJ_EXPRESSION (o_id (xobj_of e)) + size_enum (xtype e) +
        size_size (lenZ (xnodes e)) + n + size_user_data (o_ud (xobj_of e))).

  (** src/expression_deserialize.h 28-247.  [hm] is the handle map given in the options.
      The node rebuilt is named after the handle read.  The literal and variable parts
      read their common data with NULL options, which are dereferenced if the data
      announces nodes.  Registering the handle in the map (205-211) is not modelled: it
      only happens for the outermost expression.  [fuel] bounds the nesting. *)
  Variable jen : list Z -> Z.
  Variable otype : Z -> option Z.
  Variable hm : option mstate.
  Definition deser_leaf_data (s : rstate) : res (unit * rstate) :=
    do (t, s) <- deser_enum s;
    do (n, s) <- deser_size s;
    if n =? 0 then Ok (tt, s) else UB UBBounds.
  Definition deser_literal (id : Z) (s : rstate) : res (expr * rstate) :=
    do (_, s) <- deser_leaf_data s;
    do (d, s) <- deser_datum le s;
    do e <- create_literal id d;
    Ok (e, s).
  Definition deser_variable (id : Z) (s : rstate) : res (expr * rstate) :=
    match hm with
    | None => Err ERR_INVALID_OBJECT
    | Some m =>
        do (_, s) <- deser_leaf_data s;
        do (h, s) <- deser_object s;
        match d_val (map_get jen m (ccs_object h)) with
        | VObject g => do e <- create_variable otype id g; Ok (e, s)
        | _ => Err ERR_INVALID_HANDLE
        end
    end.
  Definition with_ud (e : expr) (b : list Z) : expr :=
    let ud := match b with [] => None | _ => Some b end in
    match e with
    | ELit o d => ELit (mkObj (o_id o) ud) d
    | EVar o h => EVar (mkObj (o_id o) ud) h
    | EOp o t l => EOp (mkObj (o_id o) ud) t l
    end.
  Section Nodes.
    Variable node : rstate -> res (expr * rstate).
    Fixpoint deser_nodes (n : nat) (s : rstate) : res (list expr * rstate) :=
      match n with
      | O => Ok ([], s)
      | S n' => do (e, s) <- node s; do (l, s) <- deser_nodes n' s; Ok (e :: l, s)
      end.
  End Nodes.
  Fixpoint deser_expr (fuel : nat) (s : rstate) : res (expr * rstate) :=
    match fuel with
    | O => UB UBFuel
    | S fuel' =>
        do (o, s) <- deser_object_internal s;
        do _ <- refute (negb (fst o =? OBJ_EXPRESSION)) ERR_INVALID_TYPE;
        do dtype <- peek_enum s;
        do (e, s) <-
          (if dtype =? XLITERAL then deser_literal (snd o) s
           else if dtype =? XVARIABLE then deser_variable (snd o) s
           else
             do _ <- refute ((dtype <? XOR) || (XTYPE_MAX <=? dtype)) ERR_UNSUPPORTED_OPERATION;
             do (t, s) <- deser_enum s;
             do (n, s) <- deser_size s;
             do (l, s) <- deser_nodes (deser_expr fuel') (Z.to_nat n) s;
             do _ <- check_arity t (lenZ l);
             Ok (EOp (mkObj (snd o) None) t l, s));
        do (b, s) <- deser_user_data s;
        Ok (with_ud e b, s)
    end.
  Definition deser_expression (s : rstate) : res (expr * rstate) := deser_expr (S (length (r_mem s))) s.
End Ser.
