(** Configuration spaces: which conditions are acceptable, what the conditions and the
    forbidden clauses say about values, which distribution samples which parameter. *)
From Coq Require Import ZArith List Bool Relations.
From Verif Require Import Base Datum CmpModel CmpSpec ParamModel ParamSpec ContextModel ContextSpec ExprModel ExprSpec SpaceModel.
Import ListNotations.
Open Scope Z_scope.

(** A failure of one computation is the failure of another one *)
Definition failure {X Y} (r : res X) (r' : res Y) : Prop :=
  match r, r' with Err a, Err b => a = b | UB a, UB b => a = b | _, _ => False end.

(** ** The graph of conditions over the parameters [A] *)
(** the condition of the [i]-th parameter mentions the [j]-th *)
Definition reads (A : list Z) (conds : list (option expr)) (j i : nat) : Prop :=
  exists e h, nth_error conds i = Some (Some e) /\ nth_error A j = Some h /\ occurs h e.
Definition depends (A : list Z) (conds : list (option expr)) : nat -> nat -> Prop := clos_trans nat (reads A conds).
Definition acyclic (A : list Z) (conds : list (option expr)) : Prop := forall i, ~ depends A conds i i.
(** the [i]-th parameter is on a cycle or depends on one *)
Definition tangled (A : list Z) (conds : list (option expr)) (i : nat) : Prop :=
  exists c, depends A conds c c /\ (c = i \/ depends A conds c i).
Definition dependencies_first (A : list Z) (conds : list (option expr)) (order : list nat) : Prop :=
  forall l1 i l2 j, order = l1 ++ i :: l2 -> reads A conds j i -> In j l1.
(** [conds'] is [conds] with the condition [e] for the [i]-th parameter *)
Definition conditioned (conds : list (option expr)) (i : nat) (e : expr) (conds' : list (option expr)) : Prop :=
  length conds' = length conds /\ nth_error conds' i = Some (Some e) /\
  forall j, j <> i -> nth_error conds' j = nth_error conds j.
(** Everything a space shows *)
Definition same_space (s s' : space) : Prop :=
  s_self s' = s_self s /\ s_ctx s' = s_ctx s /\ s_conds s' = s_conds s /\ s_attach s' = s_attach s /\
  s_dists s' = s_dists s /\ s_next s' = s_next s /\ s_forbidden s' = s_forbidden s.
Inductive sets_condition (s : space) (i : Z) (e : expr) : res unit -> space -> Prop :=
| sc_range : lenZ (s_conds s) <= wrap 32 i -> sets_condition s i e (Err ERR_OUT_OF_BOUNDS) s
| sc_taken e' : nth_error (s_conds s) (Z.to_nat (wrap 32 i)) = Some (Some e') ->
    sets_condition s i e (Err ERR_INVALID_PARAMETER) s
| sc_foreign h s' : nth_error (s_conds s) (Z.to_nat (wrap 32 i)) = Some None -> occurs h e -> ~ In h (s_params s) ->
    same_space s s' -> sets_condition s i e (Err ERR_INVALID_PARAMETER) s'
| sc_cycle conds' s' : nth_error (s_conds s) (Z.to_nat (wrap 32 i)) = Some None ->
    (forall h, occurs h e -> In h (s_params s)) -> conditioned (s_conds s) (Z.to_nat (wrap 32 i)) e conds' ->
    ~ acyclic (s_params s) conds' -> same_space s s' -> sets_condition s i e (Err ERR_INVALID_GRAPH) s'
| sc_ok conds' s' : nth_error (s_conds s) (Z.to_nat (wrap 32 i)) = Some None ->
    (forall h, occurs h e -> In h (s_params s)) -> conditioned (s_conds s) (Z.to_nat (wrap 32 i)) e conds' ->
    acyclic (s_params s) conds' -> s_conds s' = conds' -> same_space (with_conds s conds') s' ->
    sets_condition s i e (Ok tt) s'.
(** arrays of handles: counting, too small, padded with NULL *)
Definition listed {T} (l : list (option T)) (arr : option nat) (r : res (option (list (option T)) * nat)) : Prop :=
  match arr with
  | None => r = Ok (None, length l)
  | Some n => ((length l <= n)%nat /\ r = Ok (Some (l ++ repeat None (n - length l)), length l)) \/
              ((n < length l)%nat /\ r = Err ERR_INVALID_VALUE)
  end.

Section Values.
  Variable heap : Z -> param.
  Variable A : list Z.
  Variable conds : list (option expr).
  (** Conditions and clauses are meant when they are true; false, inactive and
      values of other types are all the same. *)
  Definition holds (vs : list datum) (e : expr) : Prop :=
    exists d, evaluates heap (Some A) (Some vs) e (Ok d) /\ d_val d = VBool 1.
  Definition fails (vs : list datum) (e : expr) : Prop :=
    exists d, evaluates heap (Some A) (Some vs) e (Ok d) /\ d_val d <> VBool 1.
  Definition stuck {X} (vs : list datum) (e : expr) (r : res X) : Prop :=
    exists r', evaluates heap (Some A) (Some vs) e r' /\ failure r' r.

  (** ** Activity: [vs] is [initial] with the parameters whose condition does not hold
      in [vs] made inactive.  Only the conditions in [S] are considered. *)
  Definition settled (S : nat -> Prop) (initial vs : list datum) (i : nat) : Prop :=
    match nth_error conds i with
    | Some (Some e) =>
        (S i -> (holds vs e /\ nth_error vs i = nth_error initial i) \/ (fails vs e /\ nth_error vs i = Some inactive)) /\
        (~ S i -> nth_error vs i = nth_error initial i)
    | _ => nth_error vs i = nth_error initial i
    end.
  Definition solves (S : nat -> Prop) (initial vs : list datum) : Prop :=
    length vs = length initial /\ forall i, (i < length initial)%nat -> settled S initial vs i.
  (** some condition fails to evaluate although what it depends on is settled *)
  Definition unsettled {X} (S : nat -> Prop) (initial : list datum) (r : res X) : Prop :=
    exists vs i e, length vs = length initial /\ Forall wf_datum vs /\ nth_error conds i = Some (Some e) /\ S i /\
      (forall j, depends A conds j i -> settled S initial vs j) /\ stuck vs e r.

  (** ** Validity *)
  Variable clauses : list expr.
  Definition live (vs : list datum) (i : nat) : Prop :=
    match nth_error conds i with Some (Some e) => holds vs e | _ => True end.
  Definition dormant (vs : list datum) (i : nat) : Prop :=
    match nth_error conds i with Some (Some e) => fails vs e | _ => False end.
  Definition right_value (vs : list datum) (i : nat) : Prop :=
    exists h v, nth_error A i = Some h /\ nth_error vs i = Some v /\
      ((live vs i /\ d_val v <> VInactive /\ domain (heap h) (d_val v)) \/ (dormant vs i /\ d_val v = VInactive)).
  Definition wrong_value (vs : list datum) (i : nat) : Prop :=
    exists h v, nth_error A i = Some h /\ nth_error vs i = Some v /\
      ((live vs i /\ (d_val v = VInactive \/ ~ domain (heap h) (d_val v))) \/ (dormant vs i /\ d_val v <> VInactive)).
  Definition valid (vs : list datum) : Prop :=
    length vs = length A /\ (forall i, (i < length A)%nat -> right_value vs i) /\ Forall (fails vs) clauses.
  (** Outcome of testing the clauses in order, then of checking values *)
  Inductive tested (vs : list datum) : res bool -> Prop :=
  | ts_clean : Forall (fails vs) clauses -> tested vs (Ok true)
  | ts_forbidden l1 e l2 : clauses = l1 ++ e :: l2 -> Forall (fails vs) l1 -> holds vs e -> tested vs (Ok false)
  | ts_stuck l1 e l2 (r : res bool) : clauses = l1 ++ e :: l2 -> Forall (fails vs) l1 -> stuck vs e r -> tested vs r.
  Inductive checked_values (vs : list datum) : res bool -> Prop :=
  | cv_length : length vs <> length A -> checked_values vs (Err ERR_INVALID_CONFIGURATION)
  | cv_wrong i : length vs = length A -> wrong_value vs i -> checked_values vs (Ok false)
  | cv_stuck i e (r : res bool) : length vs = length A -> nth_error conds i = Some (Some e) -> stuck vs e r ->
      checked_values vs r
  | cv_clauses r : length vs = length A -> (forall i, (i < length A)%nat -> right_value vs i) -> tested vs r ->
      checked_values vs r.

  (** ** Sampling *)
  Variable rng : Type.
  Variable draw : Z -> list Z -> rng -> res (list datum) * rng.
  Variable dists : list dwrapper.
  Definition ask (w : dwrapper) (g : rng) : res (list datum) * rng :=
    draw (dw_dist w) (map (fun i => nth i A 0) (dw_indexes w)) g.
  Inductive draws : list dwrapper -> rng -> list (list datum) -> rng -> Prop :=
  | dr_nil g : draws [] g [] g
  | dr_cons w ws g l g1 ls g2 : ask w g = (Ok l, g1) -> draws ws g1 ls g2 -> draws (w :: ws) g (l :: ls) g2.
  (** all distributions are sampled in turn, every component goes to its parameter *)
  Definition drawn (g : rng) (vs : list datum) (g' : rng) : Prop :=
    exists ls, draws dists g ls g' /\ length vs = length A /\
      forall a w l k i, nth_error dists a = Some w -> nth_error ls a = Some l -> nth_error (dw_indexes w) k = Some i ->
        nth_error vs i = nth_error l k.
  Inductive attempt (g : rng) : res (list datum * bool) -> rng -> Prop :=
  | at_done initial vs b g' : drawn g initial g' -> solves (fun _ => True) initial vs -> tested vs (Ok b) ->
      attempt g (Ok (vs, b)) g'
  | at_clause initial vs (r : res bool) (r' : res (list datum * bool)) g' : drawn g initial g' ->
      solves (fun _ => True) initial vs -> tested vs r -> failure r r' -> attempt g r' g'
  | at_condition initial r g' : drawn g initial g' -> unsettled (fun _ => True) initial r -> attempt g r g'
  | at_draw ws1 w ws2 ls g1 r r' g2 : dists = ws1 ++ w :: ws2 -> draws ws1 g ls g1 -> ask w g1 = (r, g2) ->
      failure r r' -> attempt g r' g2.
  (** at most [n] attempts, until one is accepted *)
  Inductive attempts : nat -> rng -> res (list datum) -> rng -> Prop :=
  | ats_out g : attempts 0 g (Err ERR_SAMPLING_UNSUCCESSFUL) g
  | ats_found n g vs g' : attempt g (Ok (vs, true)) g' -> attempts (Datatypes.S n) g (Ok vs) g'
  | ats_again n g vs g' r g'' : attempt g (Ok (vs, false)) g' -> attempts n g' r g'' -> attempts (Datatypes.S n) g r g''
  | ats_fail n g (r : res (list datum * bool)) g' r' : attempt g r g' -> failure r r' -> attempts (Datatypes.S n) g r' g'.
  (** at most [n] attempts to find [m] *)
  Inductive harvest : nat -> nat -> rng -> res unit -> list (list datum) -> rng -> Prop :=
  | hv_done n g : harvest n 0 g (Ok tt) [] g
  | hv_out m g : harvest 0 (Datatypes.S m) g (Err ERR_SAMPLING_UNSUCCESSFUL) [] g
  | hv_found n m g vs g' r l g'' : attempt g (Ok (vs, true)) g' -> harvest n m g' r l g'' ->
      harvest (Datatypes.S n) (Datatypes.S m) g r (vs :: l) g''
  | hv_again n m g vs g' r l g'' : attempt g (Ok (vs, false)) g' -> harvest n (Datatypes.S m) g' r l g'' ->
      harvest (Datatypes.S n) (Datatypes.S m) g r l g''
  | hv_fail n m g (r : res (list datum * bool)) g' r' : attempt g r g' -> failure r r' ->
      harvest (Datatypes.S n) (Datatypes.S m) g r' [] g'.
End Values.

(** ** Adding a forbidden clause: refused when it mentions a foreign parameter or when
    it is true of the default values [defaults] once settled *)
Definition defaults (heap : Z -> param) (A : list Z) : list datum := map (fun h => p_default (heap h)) A.
Inductive adds_clause (heap : Z -> param) (S : nat -> Prop) (s : space) (e : expr) : res unit -> space -> Prop :=
| ac_foreign h : occurs h e -> ~ In h (s_params s) -> adds_clause heap S s e (Err ERR_INVALID_PARAMETER) s
| ac_condition r : (forall h, occurs h e -> In h (s_params s)) ->
    unsettled heap (s_params s) (s_conds s) S (defaults heap (s_params s)) r -> adds_clause heap S s e r s
| ac_stuck vs r : (forall h, occurs h e -> In h (s_params s)) ->
    solves heap (s_params s) (s_conds s) S (defaults heap (s_params s)) vs -> stuck heap (s_params s) vs e r ->
    adds_clause heap S s e r s
| ac_forbids vs : (forall h, occurs h e -> In h (s_params s)) ->
    solves heap (s_params s) (s_conds s) S (defaults heap (s_params s)) vs -> holds heap (s_params s) vs e ->
    adds_clause heap S s e (Err ERR_INVALID_CONFIGURATION) s
| ac_ok vs s' : (forall h, occurs h e -> In h (s_params s)) ->
    solves heap (s_params s) (s_conds s) S (defaults heap (s_params s)) vs -> fails heap (s_params s) vs e ->
    s_forbidden s' = s_forbidden s ++ [e] -> same_space (with_forbidden s (s_forbidden s ++ [e])) s' ->
    s_sorted s' = s_sorted s -> s_graph_ok s' = s_graph_ok s ->
    adds_clause heap S s e (Ok tt) s'.
(** several clauses: until the first failure *)
Inductive adds_clauses (heap : Z -> param) (S : nat -> Prop) : space -> list expr -> res unit -> space -> Prop :=
| acs_nil s : adds_clauses heap S s [] (Ok tt) s
| acs_ok s e s1 l r s2 : adds_clause heap S s e (Ok tt) s1 -> adds_clauses heap S s1 l r s2 -> adds_clauses heap S s (e :: l) r s2
| acs_fail s e r s1 l : adds_clause heap S s e r s1 -> r <> Ok tt -> adds_clauses heap S s (e :: l) r s1.

(** What is assumed of the sampling of distributions, for every parameter one value *)
Definition well_drawn (rng : Type) (draw : Z -> list Z -> rng -> res (list datum) * rng) : Prop :=
  forall d ps g l g', draw d ps g = (Ok l, g') -> length l = length ps /\ Forall wf_datum l.
Definition drawn_in_domains (heap : Z -> param) (rng : Type) (draw : Z -> list Z -> rng -> res (list datum) * rng) : Prop :=
  forall d ps g l g', draw d ps g = (Ok l, g') ->
    Forall2 (fun h v => d_val v <> VInactive /\ domain (heap h) (d_val v)) ps l.

(** ** Distributions: every parameter is one component of one distribution *)
Definition component (s : space) (w : dwrapper) (k i : nat) : Prop :=
  In w (s_dists s) /\ nth_error (dw_indexes w) k = Some i.
Definition partitioned (s : space) : Prop :=
  (forall i, (i < length (s_params s))%nat -> exists w k, component s w k i) /\
  (forall w k i, component s w k i -> (i < length (s_params s))%nat) /\
  (forall w k w' k' i, component s w k i -> component s w' k' i -> w = w' /\ k = k').
(** Setting a distribution replaces those that sampled one of the parameters; the other
    parameters that lose theirs get their default distribution, in the order in which
    the distributions are met. *)
Definition apart (indexes : list nat) (w : dwrapper) : Prop := forall i, In i indexes -> ~ In i (dw_indexes w).
Inductive survivors (indexes : list nat) : list dwrapper -> list dwrapper -> Prop :=
| sv_nil : survivors indexes [] []
| sv_keep w l m : apart indexes w -> survivors indexes l m -> survivors indexes (w :: l) (w :: m)
| sv_drop w l m : ~ apart indexes w -> survivors indexes l m -> survivors indexes (w :: l) m.
(** the distributions met when looking at the parameters in turn *)
Inductive met (s : space) (seen : list dwrapper) : list nat -> list dwrapper -> Prop :=
| met_nil : met s seen [] []
| met_old i l ws w : In w seen -> In i (dw_indexes w) -> met s seen l ws -> met s seen (i :: l) ws
| met_new i l ws w : In w (s_dists s) -> ~ In w seen -> In i (dw_indexes w) -> met s (w :: seen) l ws ->
    met s seen (i :: l) (w :: ws).
Inductive without (indexes : list nat) : list nat -> list nat -> Prop :=
| wo_nil : without indexes [] []
| wo_keep i l m : ~ In i indexes -> without indexes l m -> without indexes (i :: l) (i :: m)
| wo_drop i l m : In i indexes -> without indexes l m -> without indexes (i :: l) m.
Definition sampled_by (w : dwrapper) : Z * list nat := (dw_dist w, dw_indexes w).
Inductive sets_distribution (default_dist : Z -> Z) (s : space) (d : Z) (indexes : list nat) : Z -> space -> Prop :=
| sd_bad : ~ (NoDup indexes /\ Forall (fun i => (i < length (s_params s))%nat) indexes) ->
    sets_distribution default_dist s d indexes ERR_INVALID_VALUE s
| sd_ok kept gone orphans s' : NoDup indexes -> Forall (fun i => (i < length (s_params s))%nat) indexes ->
    survivors indexes (s_dists s) kept -> met s [] indexes gone -> without indexes (flat_map dw_indexes gone) orphans ->
    map sampled_by (s_dists s') =
      map sampled_by kept ++ (d, indexes) :: map (fun j => (default_dist (nth j (s_params s) 0), [j])) orphans ->
    s_self s' = s_self s -> s_ctx s' = s_ctx s -> s_conds s' = s_conds s -> s_forbidden s' = s_forbidden s ->
    s_sorted s' = s_sorted s -> s_graph_ok s' = s_graph_ok s ->
    sets_distribution default_dist s d indexes 0 s'.
(** Adding a parameter: it gets no condition, and its own distribution, the last one *)
Inductive adds_parameter (heap : Z -> param) (dimension : Z -> nat) (default_dist : Z -> Z) (s : space) (h : Z) (d : option Z)
  : Z -> space -> Prop :=
| ap_refused r : admits heap KConfiguration (s_params s) h (option_map (fun d => Z.of_nat (dimension d)) d) r (s_params s) ->
    r <> 0 -> adds_parameter heap dimension default_dist s h d r s
| ap_ok s' : admits heap KConfiguration (s_params s) h (option_map (fun d => Z.of_nat (dimension d)) d) 0 (s_params s ++ [h]) ->
    s_params s' = s_params s ++ [h] -> s_conds s' = s_conds s ++ [None] -> s_forbidden s' = s_forbidden s -> s_self s' = s_self s ->
    c_name (s_ctx s') = c_name (s_ctx s) ->
    map sampled_by (s_dists s') =
      map sampled_by (s_dists s) ++ [(match d with Some d => d | None => default_dist h end, [length (s_params s)])] ->
    s_sorted s' = s_sorted s ++ [length (s_params s)] -> s_graph_ok s' = s_graph_ok s ->
    adds_parameter heap dimension default_dist s h d 0 s'.
Inductive adds_parameters (heap : Z -> param) (dimension : Z -> nat) (default_dist : Z -> Z)
  : space -> list (Z * option Z) -> Z -> space -> Prop :=
| aps_nil s : adds_parameters heap dimension default_dist s [] 0 s
| aps_ok s h d s1 l r s2 : adds_parameter heap dimension default_dist s h d 0 s1 ->
    adds_parameters heap dimension default_dist s1 l r s2 -> adds_parameters heap dimension default_dist s ((h, d) :: l) r s2
| aps_fail s h d r s1 l : adds_parameter heap dimension default_dist s h d r s1 -> r <> 0 ->
    adds_parameters heap dimension default_dist s ((h, d) :: l) r s1.
(** What is reported about a parameter *)
Definition attached (s : space) : Prop :=
  forall i, (exists w k, component s w k (Z.to_nat (wrap 32 i)) /\ get_parameter_distribution s i = Ok (dw_dist w, k)) \/
            (lenZ (s_params s) <= wrap 32 i /\ get_parameter_distribution s i = Err ERR_OUT_OF_BOUNDS).

(** ** Histories.  [known] are the parameters that exist.  The index of [reach] is the
    set of parameters whose conditions the default configuration takes into account:
    all of them, except after a condition was refused because of a cycle and until the
    space is checked, sampled, or given another condition.  Arrays count their elements
    with 32 bits (src/utarray.h 67-75). *)
Section Reach.
  Variable heap : Z -> param.
  Variable jen : list Z -> Z.
  Variable dimension : Z -> nat.
  Variable default_dist : Z -> Z.
  Variable rng : Type.
  Variable draw : Z -> list Z -> rng -> res (list datum) * rng.
  Variable known : Z -> Prop.
  (** parameters are made by the constructors; default distributions are for one parameter *)
  Definition sound_space : Prop :=
    (forall h, known h -> created jen (heap h)) /\ (forall h, known h -> 0 < h) /\
    (forall h, dimension (default_dist h) = 1%nat).
  Definition everything : nat -> Prop := fun _ => True.
  Inductive reach : (nat -> Prop) -> space -> Prop :=
  | re_new self name : reach everything (new_space self name)
  | re_add S s h d r s' : reach S s -> known h -> lenZ (s_params s) + 1 < 2 ^ 32 -> space_add heap dimension default_dist s h d = (r, s') ->
      reach (fun i => S i \/ i = length (s_params s)) s'
  | re_dist S s d indexes r s' : reach S s -> length indexes = dimension d ->
      set_distribution default_dist s d indexes = (r, s') -> reach S s'
  | re_condition S s i e s' : reach S s -> wf_expr known e -> set_condition s i e = (Ok tt, s') -> reach everything s'
  | re_refused S s i e s' r : reach S s -> wf_expr known e -> set_condition s i e = (r, s') -> r <> Ok tt ->
      r <> Err ERR_INVALID_GRAPH -> reach S s'
  | re_cycle S s i e s' conds' : reach S s -> wf_expr known e -> set_condition s i e = (Err ERR_INVALID_GRAPH, s') ->
      conditioned (s_conds s) (Z.to_nat (wrap 32 i)) e conds' -> reach (fun j => ~ tangled (s_params s) conds' j) s'
  | re_clause S s e r s' : reach S s -> wf_expr known e -> add_forbidden_clause heap jen s e = (r, s') -> reach S s'
  | re_check S s owner vs r s' : reach S s -> check_configuration heap jen s owner vs = (r, s') -> owner = s_self s ->
      reach everything s'
  | re_check_values S s vs r s' : reach S s -> check_configuration_values heap jen s vs = (r, s') -> reach everything s'
  | re_sample S s g r g' s' : reach S s -> sample heap jen rng draw s g = (r, g', s') -> reach everything s'
  | re_samples S s n g arr r arr' g' s' : reach S s -> n <> O -> samples heap jen rng draw s n g arr = (r, arr', g', s') ->
      reach everything s'.
End Reach.
