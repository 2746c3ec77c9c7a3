(** Spaces as lists of parameters, bindings as arrays. *)
From Coq Require Import ZArith List Bool.
From Verif Require Import Base Datum CmpSpec ParamModel ParamSpec ContextModel.
Import ListNotations.
Open Scope Z_scope.

Section Heap.
  Variable heap : Z -> param.
  Definition name_of (h : Z) : list Z := p_name (heap h).

  (** Adding parameter [h] to a space that contains [A] *)
  Inductive admits (k : space_kind) (A : list Z) (h : Z) (dim : option Z) : Z -> list Z -> Prop :=
  | no_string : k = KConfiguration -> p_type (heap h) = PSTRING -> admits k A h dim ERR_INVALID_PARAMETER A
  | name_taken : ~ (k = KConfiguration /\ p_type (heap h) = PSTRING) ->
      (exists g, In g A /\ name_of g = name_of h) -> admits k A h dim ERR_INVALID_PARAMETER A
  | bad_dimension d : k = KConfiguration -> p_type (heap h) <> PSTRING ->
      ~ (exists g, In g A /\ name_of g = name_of h) -> dim = Some d -> d <> 1 ->
      admits k A h dim ERR_INVALID_DISTRIBUTION A
  | added : ~ (k = KConfiguration /\ p_type (heap h) = PSTRING) ->
      ~ (exists g, In g A /\ name_of g = name_of h) ->
      (k = KConfiguration -> dim = None \/ dim = Some 1) -> admits k A h dim 0 (A ++ [h]).
  Inductive space_run (k : space_kind) : list Z -> list (Z * option Z) -> list Z -> list Z -> Prop :=
  | run_nil A : space_run k A [] [] A
  | run_cons A h dim r B l rs C : admits k A h dim r B -> space_run k B l rs C ->
      space_run k A ((h, dim) :: l) (r :: rs) C.
  (** add_parameters: until the first failure *)
  Inductive space_adds (k : space_kind) : list Z -> list (Z * option Z) -> Z -> list Z -> Prop :=
  | adds_nil A : space_adds k A [] 0 A
  | adds_ok A h dim B l r C : admits k A h dim 0 B -> space_adds k B l r C -> space_adds k A ((h, dim) :: l) r C
  | adds_fail A h dim r B l : admits k A h dim r B -> r <> 0 -> space_adds k A ((h, dim) :: l) r B.

  (** All lookups of context [c] describe the list [A] *)
  Definition describes (c : context) (A : list Z) : Prop :=
    NoDup (map name_of A) /\
    (forall n, get_parameters c (Some n) =
               if (n <? length A)%nat then Err ERR_INVALID_VALUE
               else Ok (Some (A ++ repeat 0 (n - length A)), length A)) /\
    get_parameters c None = Ok (None, length A) /\
    (forall i, 0 <= i < 2 ^ 32 ->
       get_parameter c i = match nth_error A (Z.to_nat i) with Some h => Ok h | None => Err ERR_OUT_OF_BOUNDS end) /\
    (forall h i, nth_error A i = Some h -> get_index c h = Ok i) /\
    (forall h, ~ In h A -> get_index c h = Err ERR_INVALID_PARAMETER) /\
    (forall h i, nth_error A i = Some h -> get_by_name c (name_of h) = Ok h /\ get_index_by_name c (name_of h) = Ok i) /\
    (forall n, ~ In n (map name_of A) -> get_by_name c n = Err ERR_INVALID_NAME /\ get_index_by_name c n = Err ERR_INVALID_NAME) /\
    (forall hs is, Forall2 (fun h i => nth_error A i = Some h) hs is -> get_indexes c hs = Ok is) /\
    (forall hs, ~ Forall (fun h => In h A) hs -> get_indexes c hs = Err ERR_INVALID_PARAMETER).

  (** What a parameter accepts when asked to validate a value: None to reject *)
  Definition domain (p : param) (v : value) : Prop :=
    if p_type p =? PNUMERICAL then
      num_domain (CodecModel.i_type (p_interval p)) (CodecModel.i_lower (p_interval p)) (CodecModel.i_upper (p_interval p)) v
    else if p_type p =? PSTRING then exists s, v = VString s
    else In v (map d_val (p_values p)).
  (** the value kept when [v] is stored at index [i] of a binding over [A], and the
      error if it is refused *)
  Inductive stored (A : list Z) (i : nat) (v : datum) : Z -> datum -> Prop :=
  | as_is : Z.testbit (d_flags v) 0 = false -> stored A i v 0 v
  | checked h : Z.testbit (d_flags v) 0 = true -> nth_error A i = Some h -> domain (heap h) (d_val v) ->
      stored A i v 0 (if p_type (heap h) =? PNUMERICAL then v else clean v)
  | refused h w : Z.testbit (d_flags v) 0 = true -> nth_error A i = Some h -> ~ domain (heap h) (d_val v) ->
      stored A i v ERR_INVALID_VALUE w
  | no_such w : Z.testbit (d_flags v) 0 = true -> nth_error A i = None -> stored A i v ERR_OUT_OF_BOUNDS w.

  (** index designated by a call *)
  Definition target (A : list Z) (o : bop) (i : nat) : Prop :=
    match o with
    | SetIndex j _ => i = j
    | SetName n _ => exists h, nth_error A i = Some h /\ name_of h = n
    | SetParam h _ => nth_error A i = Some h
    | SetValues _ => False
    end.
  Definition no_target (A : list Z) (o : bop) (code : Z) : Prop :=
    match o with
    | SetIndex _ _ => False
    | SetName n _ => ~ In n (map name_of A) /\ code = ERR_INVALID_NAME
    | SetParam h _ => ~ In h A /\ code = ERR_INVALID_PARAMETER
    | SetValues _ => False
    end.
  Definition given (o : bop) : list datum :=
    match o with SetIndex _ v | SetName _ v | SetParam _ v => [v] | SetValues l => l end.

  (** Effect of a call on the array of values *)
  Definition replaced (vals : list datum) (i : nat) (w : datum) (vals' : list datum) : Prop :=
    length vals' = length vals /\ nth_error vals' i = Some w /\
    forall j, j <> i -> nth_error vals' j = nth_error vals j.
  Inductive effect (A : list Z) (vals : list datum) : bop -> Z -> list datum -> Prop :=
  | eff_none o r : no_target A o r -> effect A vals o r vals
  | eff_range o i : target A o i -> (length vals <= i)%nat -> effect A vals o ERR_OUT_OF_BOUNDS vals
  | eff_refused o i v r w : target A o i -> (i < length vals)%nat -> given o = [v] -> stored A i v r w -> r <> 0 ->
      effect A vals o r vals
  | eff_set o i v w vals' : target A o i -> (i < length vals)%nat -> given o = [v] -> stored A i v 0 w ->
      replaced vals i w vals' -> effect A vals o 0 vals'
  | eff_length vs : length vs <> length vals -> effect A vals (SetValues vs) ERR_INVALID_VALUE vals
  | eff_all vs vals' : length vs = length vals -> length vals' = length vals ->
      (forall i v, nth_error vs i = Some v -> exists w, stored A i v 0 w /\ nth_error vals' i = Some w) ->
      effect A vals (SetValues vs) 0 vals'
  | eff_some vs vals' k v r w : (* the k first values are stored, the next one is refused *)
      length vs = length vals -> length vals' = length vals ->
      (forall i v, (i < k)%nat -> nth_error vs i = Some v -> exists w, stored A i v 0 w /\ nth_error vals' i = Some w) ->
      nth_error vs k = Some v -> stored A k v r w -> r <> 0 ->
      (forall i, (k <= i)%nat -> nth_error vals' i = nth_error vals i) ->
      effect A vals (SetValues vs) r vals'.
  Inductive effects (A : list Z) : list datum -> list bop -> list Z -> list datum -> Prop :=
  | effs_nil vals : effects A vals [] [] vals
  | effs_cons vals o r vals1 os rs vals2 : effect A vals o r vals1 -> effects A vals1 os rs vals2 ->
      effects A vals (o :: os) (r :: rs) vals2.

  (** Outcome of creating a binding over [A] with the values [vs] *)
  Inductive creates (A : list Z) (vs : list datum) : res (list datum) -> Prop :=
  | cr_length : length A <> length vs -> creates A vs (Err ERR_INVALID_VALUE)
  | cr_ok vals : length vals = length A ->
      (forall i v, nth_error vs i = Some v -> exists w, stored A i v 0 w /\ nth_error vals i = Some w) ->
      creates A vs (Ok vals)
  | cr_refused k v r w : length A = length vs -> nth_error vs k = Some v -> stored A k v r w -> r <> 0 ->
      (forall i v, (i < k)%nat -> nth_error vs i = Some v -> exists w, stored A i v 0 w) ->
      creates A vs (Err r).
  (** Reads by name and by parameter are reads by index *)
  Definition slot (vals : list datum) (i : nat) : res datum :=
    match nth_error vals i with Some d => Ok d | None => Err ERR_OUT_OF_BOUNDS end.
  Definition reads_as (c : context) (A : list Z) (vals : list datum) : Prop :=
    (forall i h, nth_error A i = Some h ->
       bget vals i = slot vals i /\ bget_param c vals h = slot vals i /\ bget_name c vals (name_of h) = slot vals i) /\
    (forall n, ~ In n (map name_of A) -> bget_name c vals n = Err ERR_INVALID_NAME) /\
    (forall h, ~ In h A -> bget_param c vals h = Err ERR_INVALID_PARAMETER).
End Heap.
