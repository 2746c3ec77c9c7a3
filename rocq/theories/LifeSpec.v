(** What lifetimes should be, independently of how the library counts. *)
From Coq Require Import ZArith List Bool.
From Verif Require Import Base LifeModel.
Import ListNotations.
Open Scope Z_scope.

(** ** States *)

Definition size (s : st) : nat := length (s_objs s).
Definition look (s : st) (h : handle) : option obj :=
  match nth_error (s_objs s) h with Some (Some o) => Some o | _ => None end.

(** An object is alive as long as its count is positive. *)
Definition live (s : st) (h : handle) (o : obj) : Prop := look s h = Some o /\ 0 < o_ref o.
Definition alive (s : st) (h : handle) : Prop := exists o, live s h o.

(** ** Ownership *)

(** How many times [x] occurs in a list. *)
Definition times (x : handle) (l : list handle) : Z :=
  Z.of_nat (count_occ Nat.eq_dec l x).
Definition is (x y : handle) : Z := if Nat.eq_dec x y then 1 else 0.
Definition is_some (x : handle) (y : option handle) : Z :=
  match y with Some h => is x h | None => 0 end.
Definition sum {A} (f : A -> Z) (l : list A) : Z := fold_right (fun a n => f a + n) 0 l.

(** How many references to [x] the contents of an object own. *)
Definition holds (p : payload) (x : handle) : Z :=
  match p with
  | PPlain => 0
  | PDistributions ds => times x ds
  | PVariable v => is x v
  | PNodes l => times x l
  | PSpace params clauses dists rng =>
      sum (fun w => is x (fst w)) params + sum (fun w => is_some x (snd w)) params
      + times x clauses + sum (fun w => is x (fst w)) dists + is x rng
  | PContext params objectives => times x params + times x objectives
  | PConfiguration sp => is x sp
  | PEvaluation os c => is x os + is x c
  | PFeaturesEvaluation os c f => is x os + is x c + is x f
  | PTuner cs os hist => is x cs + is x os + times x hist
  | PUserTuner _ cs os => is x cs + is x os
  | PFeaturesTuner cs os fs hist => is x cs + is x os + is x fs + times x hist
  | PUserFeaturesTuner _ cs os fs => is x cs + is x os + is x fs
  | PMap l => sum (fun e => is_some x (e_kobj e) + is_some x (e_vobj e)) l
  | PTree children => sum (is_some x) children
  | PTreeSpace rng tree => is x rng + is x tree
  | PUserTreeSpace _ rng tree => is x rng + is x tree
  end.

(** The references to [x] owned by the objects alive. *)
Definition owned (x : handle) (e : option obj) : Z :=
  match e with
  | Some o => if 0 <? o_ref o then holds (o_data o) x else 0
  | None => 0
  end.
Definition held (s : st) (x : handle) : Z := sum (owned x) (s_objs s).

(** [y] is alive and owns a reference to [x]. *)
Definition holder (s : st) (y x : handle) : Prop :=
  exists o, live s y o /\ 0 < holds (o_data o) x.

(** [ext x]: the references to [x] that are not in objects.  The count of an
    object alive is the number of references to it, and there is at least one;
    nothing references the others. *)
Definition counted (s : st) (ext : handle -> Z) : Prop :=
  forall x,
    0 <= ext x /\
    match look s x with
    | Some o => if 0 <? o_ref o then o_ref o = ext x + held s x
                else ext x + held s x = 0
    | None => ext x + held s x = 0
    end.

(** ** Types *)

(** The contents go with the type. *)
Definition fits (t : Z) (p : payload) : Prop :=
  match p with
  | PPlain => t = T_RNG \/ t = T_DISTRIBUTION \/ t = T_PARAMETER \/ t = T_EXPRESSION \/
              t = T_ERROR_STACK
  | PDistributions _ => t = T_DISTRIBUTION
  | PVariable _ => t = T_EXPRESSION
  | PNodes _ => t = T_EXPRESSION
  | PSpace _ _ _ _ => t = T_CONFIGURATION_SPACE
  | PContext _ _ => t = T_OBJECTIVE_SPACE \/ t = T_FEATURES_SPACE
  | PConfiguration _ => t = T_CONFIGURATION \/ t = T_FEATURES \/ t = T_TREE_CONFIGURATION
  | PEvaluation _ _ => t = T_EVALUATION \/ t = T_TREE_EVALUATION
  | PFeaturesEvaluation _ _ _ => t = T_FEATURES_EVALUATION
  | PTuner _ _ _ => t = T_TUNER \/ t = T_TREE_TUNER
  | PUserTuner _ _ _ => t = T_TUNER \/ t = T_TREE_TUNER
  | PFeaturesTuner _ _ _ _ => t = T_FEATURES_TUNER
  | PUserFeaturesTuner _ _ _ _ => t = T_FEATURES_TUNER
  | PMap _ => t = T_MAP
  | PTree _ => t = T_TREE
  | PTreeSpace _ _ => t = T_TREE_SPACE
  | PUserTreeSpace _ _ _ => t = T_TREE_SPACE
  end.

(** The objects referenced, with the type each must have; maps reference anything. *)
Definition wants (t : Z) (p : payload) : list (handle * Z) :=
  let params l := map (fun x => (x, T_PARAMETER)) l in
  let exprs l := map (fun x => (x, T_EXPRESSION)) l in
  let some (T : Z) o := match o with Some x => [(x, T)] | None => [] end in
  match p with
  | PPlain => []
  | PDistributions ds => map (fun x => (x, T_DISTRIBUTION)) ds
  | PVariable v => [(v, T_PARAMETER)]
  | PNodes l => exprs l
  | PSpace ps clauses dists rng =>
      params (map fst ps) ++ flat_map (fun w => some T_EXPRESSION (snd w)) ps ++ exprs clauses
      ++ map (fun w => (fst w, T_DISTRIBUTION)) dists ++ [(rng, T_RNG)]
  | PContext ps objectives => params ps ++ exprs objectives
  | PConfiguration sp =>
      [(sp, if t =? T_CONFIGURATION then T_CONFIGURATION_SPACE
            else if t =? T_FEATURES then T_FEATURES_SPACE else T_TREE_SPACE)]
  | PEvaluation os c =>
      [(os, T_OBJECTIVE_SPACE);
       (c, if t =? T_EVALUATION then T_CONFIGURATION else T_TREE_CONFIGURATION)]
  | PFeaturesEvaluation os c f =>
      [(os, T_OBJECTIVE_SPACE); (c, T_CONFIGURATION); (f, T_FEATURES)]
  | PTuner cs os hist =>
      [(cs, if t =? T_TUNER then T_CONFIGURATION_SPACE else T_TREE_SPACE);
       (os, T_OBJECTIVE_SPACE)]
      ++ map (fun x => (x, if t =? T_TUNER then T_EVALUATION else T_TREE_EVALUATION)) hist
  | PUserTuner _ cs os =>
      [(cs, if t =? T_TUNER then T_CONFIGURATION_SPACE else T_TREE_SPACE);
       (os, T_OBJECTIVE_SPACE)]
  | PFeaturesTuner cs os fs hist =>
      [(cs, T_CONFIGURATION_SPACE); (os, T_OBJECTIVE_SPACE); (fs, T_FEATURES_SPACE)]
      ++ map (fun x => (x, T_FEATURES_EVALUATION)) hist
  | PUserFeaturesTuner _ cs os fs =>
      [(cs, T_CONFIGURATION_SPACE); (os, T_OBJECTIVE_SPACE); (fs, T_FEATURES_SPACE)]
  | PMap _ => []
  | PTree children => flat_map (some T_TREE) children
  | PTreeSpace rng tree => [(rng, T_RNG); (tree, T_TREE)]
  | PUserTreeSpace _ rng tree => [(rng, T_RNG); (tree, T_TREE)]
  end.

(** Each parameter of a configuration space is in one wrapper, and a wrapper
    lists parameters of the space only, at least one (see C32). *)
Definition covered (p : payload) : Prop :=
  match p with
  | PSpace params _ dists _ =>
      (forall i, (i < length params)%nat <-> In i (flat_map snd dists)) /\
      NoDup (flat_map snd dists) /\
      (forall w, In w dists -> snd w <> [])
  | _ => True
  end.

(** Every object alive has the contents its type says, referencing objects alive
    of the types expected there. *)
Definition sound (s : st) : Prop :=
  forall y o, live s y o ->
    fits (o_type o) (o_data o) /\ covered (o_data o) /\
    forall x t, In (x, t) (wants (o_type o) (o_data o)) ->
                exists ox, live s x ox /\ o_type ox = t.

(** ** The application *)

(** The handles an application may pass: NULL, or an object alive. *)
Definition valid (s : st) (x : option handle) : Prop :=
  match x with None => True | Some h => alive s h end.
(** An object it mutates must be its own. *)
Definition mine (app : handle -> Z) (x : option handle) : Prop :=
  match x with None => True | Some h => 0 < app h end.
Definition valid_node (s : st) (n : node) : Prop :=
  match n with NObject x => valid s x | _ => True end.
Definition valid_datum (s : st) (d : mdatum) : Prop :=
  match d with MObject x => valid s x | MOther => True end.

(** Errors are negative codes. *)
Definition errors (l : list try) : Prop := forall c, In (TError c) l -> c < 0.

(** The calls a correct application makes when it owns the references [app]. *)
Definition allowed (s : st) (app : handle -> Z) (o : op) : Prop :=
  match o with
  | ORetain x => valid s x
  | ORelease x => mine app x
  | OCallback x _ _ => valid s x
  | OPlain t => fits t PPlain
  | OMap | OContext _ | OSpace | OTree _ _ => True
  | OMultivariate l => Forall (valid s) l
  | OMixture l _ _ => Forall (valid s) l
  | OVariable x => valid s x
  | OExpression l _ => Forall (valid_node s) l
  | OConfiguration x _ => valid s x
  | OFeatures x _ => valid s x
  | OEvaluation xo xc _ => valid s xo /\ valid s xc
  | OTreeEvaluation xo xc _ => valid s xo /\ valid s xc
  | OFeaturesEvaluation xo xc xf _ => valid s xo /\ valid s xc /\ valid s xf
  | OTreeConfiguration x _ => valid s x
  | ORandomTuner xc xo => valid s xc /\ valid s xo
  | ORandomTreeTuner xt xo => valid s xt /\ valid s xo
  | ORandomFeaturesTuner xc xf xo => valid s xc /\ valid s xf /\ valid s xo
  | OUserTuner xc xo _ _ => valid s xc /\ valid s xo
  | OUserTreeTuner xt xo _ _ => valid s xt /\ valid s xo
  | OUserFeaturesTuner xc xf xo _ _ => valid s xc /\ valid s xf /\ valid s xo
  | OStaticTreeSpace x => valid s x
  | ODynamicTreeSpace x _ _ => valid s x
  | OSetRng x r => mine app x /\ valid s r
  | OTreeSetRng x r => mine app x /\ valid s r
  | OAddParameter x p d _ _ => mine app x /\ valid s p /\ valid s d
  | OContextAddParameter _ x p _ => mine app x /\ valid s p
  | OAddObjective x e _ => mine app x /\ valid s e
  | OSetCondition x _ e _ => mine app x /\ valid s e
  | OAddForbidden x e _ _ _ => mine app x /\ valid s e
  | ODefault x _ => valid s x
  | OSample x l => valid s x /\ errors l
  | OSamples x _ l => valid s x /\ errors l
  | OSetDistribution x d idx =>
      mine app x /\ valid s d /\ idx <> [] /\ s_mem s = []   (* memory is available *)
  | OSetChild x _ c _ _ => mine app x /\ valid s c
  | OTell t x l =>
      (t = T_TUNER \/ t = T_TREE_TUNER \/ t = T_FEATURES_TUNER) /\
      mine app x /\ Forall (fun e => valid s (fst e)) l
  | OMapSet x _ kd vd _ => mine app x /\ valid_datum s kd /\ valid_datum s vd
  | OMapDel x _ => mine app x
  end.

(** The references the application owns after a call that returned [code] and
    gave [given]. *)
Definition account (o : op) (code : Z) (given : list handle) (app : handle -> Z)
  : handle -> Z :=
  fun h =>
    app h + times h given +
    match o with
    | ORetain x => if code =? CCS_RESULT_SUCCESS then is_some h x else 0
    | ORelease x => - is_some h x
    | _ => 0
    end.

(** ** Destruction *)

(** [ext] being the references outside of objects, nothing keeps [x] any more:
    not a reference from outside, and of the objects alive that own it nothing
    keeps any either. *)
Inductive doomed (s : st) (ext : handle -> Z) : handle -> Prop :=
| doom : forall x, alive s x -> ext x = 0 ->
    (forall y, holder s y x -> doomed s ext y) -> doomed s ext x.

Definition subject (e : event) : handle :=
  match e with ECallback h _ _ => h | EUserDel h => h | EFree h => h end.
Definition about (x : handle) (l : list event) : list event :=
  filter (fun e => if Nat.eq_dec (subject e) x then true else false) l.

(** What must be seen of the destruction of an object: its callbacks, last
    registered first, then its user's del function, then its memory is freed
    unless that function failed. *)
Definition farewell (x : handle) (o : obj) : list event :=
  map (fun c => ECallback x (fst c) (snd c)) (rev (o_cbs o)) ++
  match o_data o with
  | PUserTuner c _ _ | PUserFeaturesTuner c _ _ _ | PUserTreeSpace c _ _ =>
      EUserDel x :: (if c <? 0 then [] else [EFree x])
  | _ => [EFree x]
  end.

(** Followed from [y] to [x] by references. *)
Inductive reaches (s : st) : handle -> handle -> Prop :=
| reach_refl : forall x, reaches s x x
| reach_step : forall y z x, holder s y z -> reaches s z x -> reaches s y x.

(** ** What a call may change *)

(** The del function of the user refuses. *)
Definition failing (p : payload) : bool :=
  match p with
  | PUserTuner c _ _ | PUserFeaturesTuner c _ _ _ | PUserTreeSpace c _ _ => c <? 0
  | _ => false
  end.
Definition destroyed (s : st) (h : handle) (o : obj) : Prop :=
  look s h = if failing (o_data o) then Some (mkObj (o_type o) 0 (o_cbs o) (o_data o)) else None.

(** Every object of [s0] is as it was, but for its count; objects were made, some
    of them destroyed again. *)
Record kept (s0 s : st) : Prop := {
  k_size : (size s0 <= size s)%nat;
  k_live : forall h o, live s0 h o ->
    exists r, 0 < r /\ look s h = Some (mkObj (o_type o) r (o_cbs o) (o_data o));
  k_dead : forall h, (h < size s0)%nat -> ~ alive s0 h -> look s h = look s0 h;
  k_log : exists ev, s_log s = s_log s0 ++ ev /\
    (forall h, (h < size s0)%nat -> about h ev = []) /\
    (forall h, (size s0 <= h)%nat ->
       about h ev = match look s h with
                    | Some _ => []
                    | None => if (h <? size s)%nat then [EFree h] else []
                    end);
  k_new : forall h o, (size s0 <= h)%nat -> look s h = Some o -> 0 < o_ref o /\ o_cbs o = [] }.

(** The object [x] has the contents [p] now; the others are as they were, but for
    their counts, or destroyed. *)
Definition contents (c : option (handle * payload)) (h : handle) (p : payload) : payload :=
  match c with
  | Some (x, q) => if Nat.eq_dec h x then q else p
  | None => p
  end.
Record after (s0 : st) (c : option (handle * payload)) (s : st) : Prop := {
  a_size : (size s0 <= size s)%nat;
  a_log : exists ev, s_log s = s_log s0 ++ ev /\
    (forall h o, live s0 h o ->
       (about h ev = [] /\
        exists r, 0 < r /\
          look s h = Some (mkObj (o_type o) r (o_cbs o) (contents c h (o_data o)))) \/
       (about h ev = farewell h o /\ destroyed s h o)) /\
    (forall h, (h < size s0)%nat -> ~ alive s0 h -> look s h = look s0 h /\ about h ev = []) /\
    (forall h, (size s0 <= h)%nat ->
       match look s h with
       | Some o => 0 < o_ref o /\ o_cbs o = [] /\ about h ev = []
       | None => about h ev = if (h <? size s)%nat then [EFree h] else []
       end) }.

(** Nothing at all is different. *)
Definition undisturbed (s0 s : st) : Prop := kept s0 s /\ forall h, look s h = look s0 h.

(** [x] is new, its only reference the one of who made it. *)
Definition fresh (s s1 : st) (x : handle) (t : Z) (p : payload) : Prop :=
  (size s <= x)%nat /\ look s1 x = Some (mkObj t 1 [] p).

(** The references nobody owns any more.  Two calls mislay some: creating a
    configuration with a refused value keeps the reference it took to the space,
    and sampling several configurations keeps the one it was working on when it
    gives up. *)
Definition parameters_of (p : payload) : nat :=
  match p with PSpace params _ _ _ => length params | _ => O end.
Definition refused_value (v : option Z) : bool :=
  match v with Some c => c <? 0 | None => false end.
Definition refused_values (s : st) (h : handle) (l : list (option Z)) : bool :=
  match look s h with
  | Some o => (o_type o =? T_CONFIGURATION_SPACE)
              && Nat.eqb (parameters_of (o_data o)) (length l)
              && match s_mem s with false :: _ => false | _ => true end
              && existsb refused_value l
  | None => false
  end.
Definition mislaid (o : op) (given : list handle) (s s1 : st) : handle -> Z :=
  fun x =>
    match o with
    | OConfiguration (Some h) (VArray l) => if refused_values s h l then is x h else 0
    | OSamples _ _ _ =>
        match look s1 x with
        | Some o => if (0 <? o_ref o) && (size s <=? x)%nat && negb (existsb (Nat.eqb x) given)
                    then 1 else 0
        | None => 0
        end
    | _ => 0
    end.

(** A state reached by a correct application, which owns the references [app],
    [lost] having been mislaid. *)
Inductive history : st -> (handle -> Z) -> (handle -> Z) -> Prop :=
| begins : forall mem, history (start mem) (fun _ => 0) (fun _ => 0)
| continues : forall s app lost o code given s1,
    history s app lost -> allowed s app o -> step o s = Done (code, given) s1 ->
    history s1 (account o code given app) (fun x => lost x + mislaid o given s s1 x).

