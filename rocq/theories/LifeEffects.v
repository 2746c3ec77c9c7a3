(** What each call does to the objects: the object it makes, the object it
    changes, and what is left when it fails. *)
From Coq Require Import ZArith List Bool.
From Verif Require Import Base LifeModel LifeSpec.
Import ListNotations.
Open Scope Z_scope.

Definition data (s : st) (h : handle) : option payload :=
  match look s h with Some o => if 0 <? o_ref o then Some (o_data o) else None | None => None end.
Definition kind (s : st) (h : handle) : option Z :=
  match look s h with Some o => if 0 <? o_ref o then Some (o_type o) else None | None => None end.

(** ** Calls that make an object *)

(** What a node becomes: an expression is shared; a parameter is wrapped in a new
    variable, a value in a new literal. *)
Definition becomes (s s1 : st) (n : node) (x : handle) : Prop :=
  match n with
  | NObject (Some h) =>
      (kind s h = Some T_EXPRESSION /\ x = h) \/
      (kind s h = Some T_PARAMETER /\ fresh s s1 x T_EXPRESSION (PVariable h))
  | NValue => fresh s s1 x T_EXPRESSION PPlain
  | _ => False
  end.

(** [h] is the object made; it is new and nobody else references it. *)
Definition makes (s : st) (o : op) (h : handle) (s1 : st) : Prop :=
  match o with
  | OPlain t => fresh s s1 h t PPlain
  | OMap => fresh s s1 h T_MAP (PMap [])
  | OContext f => fresh s s1 h (if f then T_FEATURES_SPACE else T_OBJECTIVE_SPACE) (PContext [] [])
  | OSpace => exists r, r <> h /\ fresh s s1 r T_RNG PPlain /\
                        fresh s s1 h T_CONFIGURATION_SPACE (PSpace [] [] [] r)
  | OMultivariate l | OMixture l _ _ =>
      exists ds, l = map Some ds /\ fresh s s1 h T_DISTRIBUTION (PDistributions ds)
  | OVariable (Some p) => fresh s s1 h T_EXPRESSION (PVariable p)
  | OExpression l _ =>
      exists nodes, Forall2 (becomes s s1) l nodes /\ fresh s s1 h T_EXPRESSION (PNodes nodes)
  | OConfiguration (Some cs) _ | ODefault (Some cs) _ | OSample (Some cs) _ =>
      fresh s s1 h T_CONFIGURATION (PConfiguration cs)
  | OFeatures (Some fs) _ => fresh s s1 h T_FEATURES (PConfiguration fs)
  | OTreeConfiguration (Some ts) _ => fresh s s1 h T_TREE_CONFIGURATION (PConfiguration ts)
  | OEvaluation (Some os) (Some c) _ => fresh s s1 h T_EVALUATION (PEvaluation os c)
  | OTreeEvaluation (Some os) (Some c) _ => fresh s s1 h T_TREE_EVALUATION (PEvaluation os c)
  | OFeaturesEvaluation (Some os) (Some c) (Some f) _ =>
      fresh s s1 h T_FEATURES_EVALUATION (PFeaturesEvaluation os c f)
  | ORandomTuner (Some cs) (Some os) => fresh s s1 h T_TUNER (PTuner cs os [])
  | ORandomTreeTuner (Some ts) (Some os) => fresh s s1 h T_TREE_TUNER (PTuner ts os [])
  | ORandomFeaturesTuner (Some cs) (Some fs) (Some os) =>
      fresh s s1 h T_FEATURES_TUNER (PFeaturesTuner cs os fs [])
  | OUserTuner (Some cs) (Some os) _ code => fresh s s1 h T_TUNER (PUserTuner code cs os)
  | OUserTreeTuner (Some ts) (Some os) _ code => fresh s s1 h T_TREE_TUNER (PUserTuner code ts os)
  | OUserFeaturesTuner (Some cs) (Some fs) (Some os) _ code =>
      fresh s s1 h T_FEATURES_TUNER (PUserFeaturesTuner code cs os fs)
  | OTree n _ => fresh s s1 h T_TREE (PTree (repeat None n))
  | OStaticTreeSpace (Some t) =>
      exists r, r <> h /\ fresh s s1 r T_RNG PPlain /\ fresh s s1 h T_TREE_SPACE (PTreeSpace r t)
  | ODynamicTreeSpace (Some t) _ code =>
      exists r, r <> h /\ fresh s s1 r T_RNG PPlain /\
                fresh s s1 h T_TREE_SPACE (PUserTreeSpace code r t)
  | _ => False
  end.

(** ** Calls that change an object *)

Definition at_index {A} (l l' : list A) (i : nat) (a b : A) : Prop :=
  exists l1 l2, l = l1 ++ a :: l2 /\ l' = l1 ++ b :: l2 /\ length l1 = i.

(** The references a map takes with a key or a value. *)
Definition object_of (d : mdatum) : option handle :=
  match d with MObject x => x | MOther => None end.

(** The evaluations a tuner keeps: those that succeeded. *)
Definition kept_evaluations (l : list (option handle * bool)) : list handle :=
  flat_map (fun e : option handle * bool =>
              match e with (Some h, true) => [h] | _ => [] end) l.
Definition extended (p : payload) (l : list handle) : payload :=
  match p with
  | PTuner cs os hist => PTuner cs os (hist ++ l)
  | PFeaturesTuner cs os fs hist => PFeaturesTuner cs os fs (hist ++ l)
  | _ => p
  end.
Definition user_defined (p : payload) : bool :=
  match p with PUserTuner _ _ _ | PUserFeaturesTuner _ _ _ _ => true | _ => false end.
Definition evaluations (s : st) (t : Z) (l : list (option handle * bool)) : Prop :=
  forall e, In e l -> exists h, fst e = Some h /\
    kind s h = Some (if t =? T_TUNER then T_EVALUATION
                     else if t =? T_TREE_TUNER then T_TREE_EVALUATION else T_FEATURES_EVALUATION).

(** A new distribution nobody has touched. *)
Definition default_distribution (s s1 : st) (k : handle) : Prop :=
  (size s <= k)%nat /\ exists r, 0 < r /\ look s1 k = Some (mkObj T_DISTRIBUTION r [] PPlain).

(** The distributions of a space after the parameters [idx] were given [d]: the
    ones of other parameters only are kept as they are; parameters which were
    together with one of [idx] get a new default distribution each. *)
Definition redistributed (s s1 : st) (d : handle) (idx : list nat)
           (ds ds' : list (handle * list nat)) : Prop :=
  exists more,
    ds' = filter (fun w => forallb (fun i => negb (existsb (Nat.eqb i) idx)) (snd w)) ds
          ++ (d, idx) :: more /\
    (forall w, In w more -> default_distribution s s1 (fst w) /\ exists i, snd w = [i]) /\
    NoDup (map fst more) /\ NoDup (map snd more) /\
    forall i, In [i] (map snd more) <->
              ~ In i idx /\ exists w j, In w ds /\ In j idx /\ In j (snd w) /\ In i (snd w).

Definition changes (s : st) (o : op) (s1 : st) : Prop :=
  match o with
  | OSetRng (Some h) (Some g) =>
      exists ps cl ds r, data s h = Some (PSpace ps cl ds r) /\ after s (Some (h, PSpace ps cl ds g)) s1
  | OTreeSetRng (Some h) (Some g) =>
      (exists r t, data s h = Some (PTreeSpace r t) /\ after s (Some (h, PTreeSpace g t)) s1) \/
      (exists c r t, data s h = Some (PUserTreeSpace c r t) /\
                     after s (Some (h, PUserTreeSpace c g t)) s1)
  | OAddParameter (Some h) (Some p) d _ _ =>
      exists k ps cl ds r, data s h = Some (PSpace ps cl ds r) /\
        match d with Some k' => k = k' | None => fresh s s1 k T_DISTRIBUTION PPlain end /\
        after s (Some (h, PSpace (ps ++ [(p, None)]) cl (ds ++ [(k, [length ps])]) r)) s1
  | OContextAddParameter f (Some h) (Some p) _ =>
      kind s h = Some (if f then T_FEATURES_SPACE else T_OBJECTIVE_SPACE) /\
      exists ps es, data s h = Some (PContext ps es) /\
        after s (Some (h, PContext (ps ++ [p]) es)) s1
  | OAddObjective (Some h) (Some e) _ =>
      kind s h = Some T_OBJECTIVE_SPACE /\
      exists ps es, data s h = Some (PContext ps es) /\
        after s (Some (h, PContext ps (es ++ [e]))) s1
  | OSetCondition (Some h) i (Some e) _ =>
      exists ps ps' cl ds r p, data s h = Some (PSpace ps cl ds r) /\
        at_index ps ps' i (p, None) (p, Some e) /\
        after s (Some (h, PSpace ps' cl ds r)) s1
  | OAddForbidden (Some h) (Some e) _ _ _ =>
      exists ps cl ds r, data s h = Some (PSpace ps cl ds r) /\
        after s (Some (h, PSpace ps (cl ++ [e]) ds r)) s1
  | OSetDistribution (Some h) (Some d) idx =>
      NoDup idx /\
      exists ps cl ds ds' r, data s h = Some (PSpace ps cl ds r) /\
        (forall i, In i idx -> (i < length ps)%nat) /\
        redistributed s s1 d idx ds ds' /\
        after s (Some (h, PSpace ps cl ds' r)) s1
  | OSetChild (Some h) i (Some c) _ _ =>
      exists ch ch', data s h = Some (PTree ch) /\ at_index ch ch' i None (Some c) /\
        after s (Some (h, PTree ch')) s1
  | OTell t (Some h) l =>
      kind s h = Some t /\
      exists p, data s h = Some p /\
        if user_defined p then s1 = s
        else evaluations s t l /\ s_log s1 = s_log s /\
             after s (Some (h, extended p (kept_evaluations l))) s1
  | OMapSet (Some h) k kd vd same =>
      exists l, data s h = Some (PMap l) /\
        ((same = true /\ (exists a, In a l /\ e_key a = k) /\ s1 = s) \/
         (kd <> MObject None /\ vd <> MObject None /\
          exists l1 l2,
            ((forall a, In a l -> e_key a <> k) /\ l = l1 ++ l2 \/
             exists a, same = false /\ l = l1 ++ a :: l2 /\ e_key a = k /\
                       forall b, In b l1 -> e_key b <> k) /\
            after s (Some (h, PMap (l1 ++ l2 ++ [mkEntry k (object_of kd) (object_of vd)]))) s1))
  | OMapDel (Some h) k =>
      exists l1 a l2, data s h = Some (PMap (l1 ++ a :: l2)) /\ e_key a = k /\
        (forall b, In b l1 -> e_key b <> k) /\
        after s (Some (h, PMap (l1 ++ l2))) s1
  | _ => False
  end.

(** ** Calls on any object *)

(** Only the header of [h] is different. *)
Definition only (s : st) (h : handle) (o' : obj) (s1 : st) : Prop :=
  size s1 = size s /\ s_log s1 = s_log s /\
  forall y, look s1 y = if Nat.eq_dec y h then Some o' else look s y.

(** One reference less, [ext] being the ones left outside of objects: what nothing
    keeps any more is destroyed, with what must be seen of it, and nothing else
    happens to the other objects.  No object is touched before the callbacks of
    the ones that own it have run. *)
Definition releases (s : st) (ext : handle -> Z) (s1 : st) : Prop :=
  size s1 = size s /\
  exists ev, s_log s1 = s_log s ++ ev /\
    (forall x o, live s x o ->
       (doomed s ext x /\ destroyed s1 x o /\ about x ev = farewell x o) \/
       (~ doomed s ext x /\ about x ev = [] /\
        exists r, 0 < r /\ look s1 x = Some (mkObj (o_type o) r (o_cbs o) (o_data o)))) /\
    (forall x, ~ alive s x -> look s1 x = look s x /\ about x ev = []) /\
    (forall l1 x cb ud l2 y, ev = l1 ++ ECallback x cb ud :: l2 -> holder s x y ->
       forall v, In v l1 -> subject v <> y).

(** What a release returns: the result of the del function of the user, if it is
    the one of the object released and it refuses. *)
Definition release_code (s : st) (ext : handle -> Z) (h : handle) (code : Z) : Prop :=
  exists o, live s h o /\
    ((code = CCS_RESULT_SUCCESS /\ (doomed s ext h -> failing (o_data o) = false)) \/
     (code < 0 /\ doomed s ext h /\
      exists cs os fs rng t, o_data o = PUserTuner code cs os \/
        o_data o = PUserFeaturesTuner code cs os fs \/ o_data o = PUserTreeSpace code rng t)).

(** ** Which calls succeed *)

Definition number (p : option payload) : nat :=
  match p with
  | Some (PSpace params _ _ _) => length params
  | Some (PContext params _) => length params
  | _ => O
  end.
(** The values given for the parameters of [h]: none, or as many as there are
    parameters, all of them acceptable. *)
Definition values_for (s : st) (h : handle) (v : values) : Prop :=
  match v with
  | VNull n => n <= 0
  | VArray l => length l = number (data s h) /\ forall v, In v l -> refused_value v = false
  end.
(** An expression, a parameter or a value. *)
Definition acceptable (s : st) (n : node) : Prop :=
  match n with
  | NObject (Some h) => kind s h = Some T_EXPRESSION \/ kind s h = Some T_PARAMETER
  | NValue => True
  | _ => False
  end.

(** The attempts at sampling: what the [j]th does. *)
Definition attempt (l : list try) (j : nat) : try := nth j l TFound.
(** One of the first [n] attempts finds, those before it only miss. *)
Definition finds (n : nat) (l : list try) : Prop :=
  exists k, (k < n)%nat /\ attempt l k = TFound /\ forall j, (j < k)%nat -> attempt l j = TMissed.
Definition found (l : list try) (m : nat) : nat :=
  length (filter (fun j => match attempt l j with TFound => true | _ => false end) (seq 0 m)).
(** [want] of the first [n] attempts find, before any error. *)
Definition finds_all (n want : nat) (l : list try) : Prop :=
  exists m, (m <= n)%nat /\ found l m = want /\
            forall j c, (j < m)%nat -> attempt l j <> TError c.

Definition are (s : st) (t : Z) (l : list (option handle)) : Prop :=
  forall x, In x l -> exists h, x = Some h /\ kind s h = Some t.

Definition accepted (s : st) (ext : handle -> Z) (o : op) : Prop :=
  match o with
  | ORetain x => x <> None
  | ORelease x => exists h, x = Some h /\
      forall p, data s h = Some p -> failing p = true -> ~ doomed s (fun x => ext x - is x h) h
  | OCallback x cb _ => x <> None /\ cb <> 0
  | OPlain _ | OMap | OContext _ | OSpace => True
  | OMultivariate l => l <> [] /\ are s T_DISTRIBUTION l
  | OMixture l v1 v2 =>
      l <> [] /\ are s T_DISTRIBUTION l /\ refused_value v1 = false /\ refused_value v2 = false
  | OVariable x => are s T_PARAMETER [x]
  | OExpression l v => refused_value v = false /\ forall n, In n l -> acceptable s n
  | OConfiguration x v =>
      are s T_CONFIGURATION_SPACE [x] /\ forall h, x = Some h -> values_for s h v
  | OFeatures x v => are s T_FEATURES_SPACE [x] /\ forall h, x = Some h -> values_for s h v
  | OEvaluation xo xc v =>
      are s T_OBJECTIVE_SPACE [xo] /\ are s T_CONFIGURATION [xc] /\
      forall h, xo = Some h -> values_for s h v
  | OTreeEvaluation xo xc v =>
      are s T_OBJECTIVE_SPACE [xo] /\ are s T_TREE_CONFIGURATION [xc] /\
      forall h, xo = Some h -> values_for s h v
  | OFeaturesEvaluation xo xc xf v =>
      are s T_OBJECTIVE_SPACE [xo] /\ are s T_CONFIGURATION [xc] /\ are s T_FEATURES [xf] /\
      forall h, xo = Some h -> values_for s h v
  | OTreeConfiguration x null => are s T_TREE_SPACE [x] /\ null = false
  | ORandomTuner xc xo => are s T_CONFIGURATION_SPACE [xc] /\ are s T_OBJECTIVE_SPACE [xo]
  | ORandomTreeTuner xt xo => are s T_TREE_SPACE [xt] /\ are s T_OBJECTIVE_SPACE [xo]
  | ORandomFeaturesTuner xc xf xo =>
      are s T_CONFIGURATION_SPACE [xc] /\ are s T_FEATURES_SPACE [xf] /\
      are s T_OBJECTIVE_SPACE [xo]
  | OUserTuner xc xo null _ =>
      are s T_CONFIGURATION_SPACE [xc] /\ are s T_OBJECTIVE_SPACE [xo] /\ null = false
  | OUserTreeTuner xt xo null _ =>
      are s T_TREE_SPACE [xt] /\ are s T_OBJECTIVE_SPACE [xo] /\ null = false
  | OUserFeaturesTuner xc xf xo null _ =>
      are s T_CONFIGURATION_SPACE [xc] /\ are s T_FEATURES_SPACE [xf] /\
      are s T_OBJECTIVE_SPACE [xo] /\ null = false
  | OTree _ v => refused_value v = false
  | OStaticTreeSpace x => are s T_TREE [x]
  | ODynamicTreeSpace x null _ => are s T_TREE [x] /\ null = false
  | OSetRng x r => are s T_CONFIGURATION_SPACE [x] /\ are s T_RNG [r]
  | OTreeSetRng x r => are s T_TREE_SPACE [x] /\ are s T_RNG [r]
  | OAddParameter x p d v dim1 =>
      are s T_CONFIGURATION_SPACE [x] /\ are s T_PARAMETER [p] /\ refused_value v = false /\
      (d <> None -> are s T_DISTRIBUTION [d] /\ dim1 = true)
  | OContextAddParameter f x p v =>
      are s (if f then T_FEATURES_SPACE else T_OBJECTIVE_SPACE) [x] /\ are s T_PARAMETER [p] /\
      refused_value v = false
  | OAddObjective x e v =>
      are s T_OBJECTIVE_SPACE [x] /\ are s T_EXPRESSION [e] /\ refused_value v = false
  | OSetCondition x i e v =>
      are s T_CONFIGURATION_SPACE [x] /\ are s T_EXPRESSION [e] /\ refused_value v = false /\
      (* the parameter exists and has no condition yet *)
      exists h ps cl ds r p, x = Some h /\ data s h = Some (PSpace ps cl ds r) /\
                             nth_error ps i = Some (p, None)
  | OAddForbidden x e v1 vd v2 =>
      are s T_CONFIGURATION_SPACE [x] /\ are s T_EXPRESSION [e] /\
      refused_value v1 = false /\ refused_value vd = false /\ refused_value v2 = false
  | ODefault x v => are s T_CONFIGURATION_SPACE [x] /\ refused_value v = false
  | OSample x l => are s T_CONFIGURATION_SPACE [x] /\ finds 100 l
  | OSamples x want l => are s T_CONFIGURATION_SPACE [x] /\ finds_all (100 * want) want l
  | OSetDistribution x d idx =>
      are s T_CONFIGURATION_SPACE [x] /\ are s T_DISTRIBUTION [d] /\ NoDup idx /\
      forall h i, x = Some h -> In i idx -> (i < number (data s h))%nat
  | OSetChild x i c v1 v2 =>
      are s T_TREE [x] /\ are s T_TREE [c] /\ refused_value v1 = false /\ refused_value v2 = false /\
      (* there is a place, and it is free *)
      exists h ch, x = Some h /\ data s h = Some (PTree ch) /\ nth_error ch i = Some None
  | OTell t x l =>
      are s t [x] /\
      forall h p, x = Some h -> data s h = Some p -> user_defined p = false -> evaluations s t l
  | OMapSet x k kd vd same =>
      are s T_MAP [x] /\
      ((same = true /\ exists h l a, x = Some h /\ data s h = Some (PMap l) /\ In a l /\ e_key a = k) \/
       (kd <> MObject None /\ vd <> MObject None))
  | OMapDel x k =>
      exists h l a, x = Some h /\ data s h = Some (PMap l) /\ In a l /\ e_key a = k
  end.

(** ** Every call *)

(** The configurations sampled, all of them new configurations of the space. *)
Definition samples (s : st) (cs : handle) (l : list handle) (s1 : st) : Prop :=
  NoDup l /\ Forall (fun h => fresh s s1 h T_CONFIGURATION (PConfiguration cs)) l /\ kept s s1.

(** [ext]: the references outside of objects before the call. *)
Definition success (s : st) (ext : handle -> Z) (o : op) (given : list handle) (s1 : st) : Prop :=
  match o with
  | ORetain (Some h) =>
      given = [] /\ exists x, live s h x /\ only s h (with_ref x (o_ref x + 1)) s1
  | ORelease (Some h) =>
      given = [] /\ release_code s (fun x => ext x - is x h) h CCS_RESULT_SUCCESS /\
      releases s (fun x => ext x - is x h) s1
  | OCallback (Some h) cb ud =>
      given = [] /\ cb <> 0 /\
      exists x, live s h x /\ only s h (with_cbs x (o_cbs x ++ [(cb, ud)])) s1
  | OSamples (Some cs) want _ =>
      length given = want /\ samples s cs given s1 /\
      forall h o, (size s <= h)%nat -> look s1 h = Some o -> In h given
  | OSetRng _ _ | OTreeSetRng _ _ | OAddParameter _ _ _ _ _ | OContextAddParameter _ _ _ _
  | OAddObjective _ _ _ | OSetCondition _ _ _ _ | OAddForbidden _ _ _ _ _
  | OSetDistribution _ _ _ | OSetChild _ _ _ _ _ | OTell _ _ _ | OMapSet _ _ _ _ _
  | OMapDel _ _ => given = [] /\ changes s o s1
  | _ => exists h, given = [h] /\ makes s o h s1 /\ kept s s1
  end.

Definition failure (s : st) (ext : handle -> Z) (o : op) (code : Z) (given : list handle) (s1 : st)
  : Prop :=
  let nothing := given = [] /\ undisturbed s s1 in
  match o with
  | ORelease (Some h) =>
      given = [] /\ release_code s (fun x => ext x - is x h) h code /\
      releases s (fun x => ext x - is x h) s1
  | OConfiguration (Some h) (VArray l) =>
      if refused_values s h l
      then given = [] /\ kept s s1 /\
           forall x, look s1 x = match look s x with
                                 | Some o => Some (if Nat.eq_dec x h then with_ref o (o_ref o + 1) else o)
                                 | None => None
                                 end
      else nothing
  | OSamples (Some cs) want _ =>
      nothing \/
      exists rest, samples s cs (given ++ rest) s1 /\ (length given < want)%nat /\
        (length rest <= 1)%nat /\ (code <> ERR_SAMPLING_UNSUCCESSFUL -> rest = []) /\
        forall h o, (size s <= h)%nat -> look s1 h = Some o -> In h (given ++ rest)
  | OTell t (Some h) l =>
      nothing \/
      (given = [] /\ code = ERR_INVALID_OBJECT /\ kind s h = Some t /\
       exists p l1 e l2, data s h = Some p /\ user_defined p = false /\ l = l1 ++ e :: l2 /\
         evaluations s t l1 /\ ~ evaluations s t [e] /\ s_log s1 = s_log s /\
         after s (Some (h, extended p (kept_evaluations l1))) s1)
  | _ => nothing
  end.

Definition outcome (s : st) (ext : handle -> Z) (o : op) (code : Z) (given : list handle) (s1 : st)
  : Prop :=
  (code = CCS_RESULT_SUCCESS /\ success s ext o given s1) \/
  (code < 0 /\ failure s ext o code given s1).

(** ** The life of each object *)

(** The callback a call registers on [h]. *)
Definition registers (o : op) (code : Z) (h : handle) : list (Z * Z) :=
  match o with
  | OCallback (Some h') cb ud =>
      if Nat.eq_dec h h' then if code =? CCS_RESULT_SUCCESS then [(cb, ud)] else [] else []
  | _ => []
  end.

(** Every object alive stays alive and nothing is seen of it, or it is destroyed
    with what must be seen; the others stay as they are.  The objects made are
    alive, or were freed and nothing else is seen of them. *)
Definition destiny (s : st) (o : op) (code : Z) (s1 : st) : Prop :=
  (size s <= size s1)%nat /\
  exists ev, s_log s1 = s_log s ++ ev /\
    (forall h x, live s h x ->
       (about h ev = [] /\
        exists x', live s1 h x' /\ o_type x' = o_type x /\ o_cbs x' = o_cbs x ++ registers o code h) \/
       (about h ev = farewell h x /\ destroyed s1 h x)) /\
    (forall h, (h < size s)%nat -> ~ alive s h -> look s1 h = look s h /\ about h ev = []) /\
    (forall h, (size s <= h)%nat ->
       match look s1 h with
       | Some x => 0 < o_ref x /\ o_cbs x = [] /\ about h ev = []
       | None => about h ev = if (h <? size s1)%nat then [EFree h] else []
       end).

(** At most how many references to one object a call takes. *)
Definition takes (o : op) : Z :=
  match o with
  | ORetain _ | OVariable _ | OConfiguration _ _ | OFeatures _ _ | OTreeConfiguration _ _
  | OStaticTreeSpace _ | ODynamicTreeSpace _ _ _ | OSetRng _ _ | OTreeSetRng _ _
  | OContextAddParameter _ _ _ _ | OAddObjective _ _ _ | OSetCondition _ _ _ _
  | ODefault _ _ | OSample _ _ | OSetDistribution _ _ _ | OSetChild _ _ _ _ _ => 1
  | OEvaluation _ _ _ | OTreeEvaluation _ _ _ | ORandomTuner _ _ | ORandomTreeTuner _ _
  | OUserTuner _ _ _ _ | OUserTreeTuner _ _ _ _ | OAddParameter _ _ _ _ _
  | OAddForbidden _ _ _ _ _ | OMapSet _ _ _ _ _ => 2
  | OFeaturesEvaluation _ _ _ _ | ORandomFeaturesTuner _ _ _ | OUserFeaturesTuner _ _ _ _ _ => 3
  | OMultivariate l | OMixture l _ _ => Z.of_nat (length l)
  | OExpression l _ => Z.of_nat (length l)
  | OTell _ _ l => Z.of_nat (length l)
  | OSamples _ want _ => Z.of_nat want
  | _ => 0
  end.

(** The calls that must leave everything as it was when they fail. *)
Definition restores (s : st) (o : op) : Prop :=
  match o with
  | ORelease (Some _) | OSamples (Some _) _ _ | OTell _ (Some _) _ => False
  | OConfiguration (Some h) (VArray l) => refused_values s h l = false
  | _ => True
  end.

(** Some object owns itself, through others maybe. *)
Definition cyclic (s : st) : Prop := exists y z, holder s y z /\ reaches s z y.
