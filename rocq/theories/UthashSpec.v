(** What the users of a hash table may rely on: it is the list of what was added and
    not deleted, in the order of the additions. *)
From Coq Require Import ZArith List Bool.
From Verif Require Import Base UthashModel.
Import ListNotations.
Open Scope Z_scope.

Section Spec.
  Variable K : Type.
  Variable hash : K -> Z -> Z.
  Variable same : K -> K -> Z -> bool.

  (** An element of the table: its address, and the key and length given with it *)
  Record entry : Type := mkEntry { e_at : Z; e_key : K; e_len : Z }.
  (** What the application knows: the memory it holds, and the table *)
  Record view : Type := mkView { v_live : Z -> bool; v_list : list entry }.

  Definition matching (k : K) (len : Z) (e : entry) : Prop :=
    hash (e_key e) (e_len e) = hash k len /\ e_len e = len /\ same (e_key e) k len = true.

  (** The obligations of the application: memory it gives back or fills is not in the
      table, only elements of the table are deleted, an element is added once, its
      memory being held, and there are at most [N] elements.  No allocation of 64 GiB
      or more succeeds. *)
  Definition may (N : Z) (v : view) (o : op K) : Prop :=
    match o with
    | New _ a _ _ _ _ _ _ _ _ => a <> 0 /\ ~ In a (map e_at (v_list v))
    | Free _ a => ~ In a (map e_at (v_list v))
    | Add _ alloc _ _ _ a =>
        a <> 0 /\ v_live v a = true /\ ~ In a (map e_at (v_list v))
        /\ Z.of_nat (length (v_list v)) + 1 <= N
        /\ (forall n, 2 ^ 36 <= n -> alloc n = false)
    | Delete _ a => In a (map e_at (v_list v))
    | _ => True
    end.

  (** What an operation tells, and what the table is afterwards *)
  Definition without (a : Z) (l : list entry) : list entry :=
    filter (fun e => negb (e_at e =? a)) l.

  Inductive does (v : view) : op K -> out -> view -> Prop :=
  | does_new : forall a tb p n hp hn k kl hv,
      does v (New K a tb p n hp hn k kl hv) Nothing (mkView (put (v_live v) a true) (v_list v))
  | does_free : forall a,
      does v (Free K a) Nothing (mkView (put (v_live v) a false) (v_list v))
  | does_add : forall alloc t k len a,
      (v_list v = [] -> alloc 64 = true /\ alloc 512 = true) ->
      does v (Add K alloc t k len a) (Added false)
        (mkView (v_live v) (v_list v ++ [mkEntry a k len]))
  | does_not_add : forall alloc t k len a,
      (v_list v = [] -> alloc 64 = false \/ alloc 512 = false) ->
      (v_list v <> [] -> exists j, 10 <= j <= 36 /\ alloc (2 ^ j) = false) ->
      does v (Add K alloc t k len a) (Added true) v
  | does_find : forall k len e,
      In e (v_list v) -> matching k len e ->
      does v (Find K k len) (Found (e_at e)) v
  | does_not_find : forall k len,
      (forall e, In e (v_list v) -> ~ matching k len e) ->
      does v (Find K k len) (Found 0) v
  | does_delete : forall a,
      does v (Delete K a) Nothing (mkView (v_live v) (without a (v_list v)))
  | does_clear : does v (Clear K) Nothing (mkView (v_live v) [])
  | does_count : does v (Count K) (Counted (Z.of_nat (length (v_list v)))) v
  | does_iterate : does v (Iterate K) (Seen (map e_at (v_list v))) v
  | does_delete_all : forall f live',
      (forall a, live' a = if f && existsb (Z.eqb a) (map e_at (v_list v))
                           then false else v_live v a) ->
      does v (DeleteAll K f) (Seen (map e_at (v_list v))) (mkView live' []).

  (** The applications that keep to their obligations whatever they are told *)
  Fixpoint legal (N : Z) (v : view) (p : client K) : Prop :=
    match p with
    | Stop _ => True
    | Do _ o next => may N v o /\ forall x v', does v o x v' -> legal N v' (next x)
    end.

  (** What an application is told *)
  Fixpoint told (v : view) (p : client K) (l : list out) : Prop :=
    match p, l with
    | Stop _, [] => True
    | Do _ o next, x :: l' => exists v', does v o x v' /\ told v' (next x) l'
    | _, _ => False
    end.

  Definition empty : view := mkView (fun _ => false) [].
End Spec.
