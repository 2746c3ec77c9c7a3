(** Arrays filled with positions and values of trees, and with values of objectives. *)
From Coq Require Import ZArith List Bool Lia Sorted.
From Verif Require Import Base Datum CodecModel FloatModel FloatSpec DistModel CmpSpec TreeModel TreeSpec TreeHeap TreeRep TreeProofs TreeOps TreeSteps TreeNav TreeFacts GetterModel GetterSpec GetterProofs GetterFacts.
Import ListNotations.
Open Scope Z_scope.

Lemma seq_next {A B : Type} (q r : prog A B) m m' : q m = Next m' -> seq q r m = r m'.
Proof. intro Q. unfold seq. now rewrite Q. Qed.
Lemma seq_stop {A B : Type} (q r : prog A B) m c m' : q m = Stop c m' -> seq q r m = Stop c m'.
Proof. intro Q. unfold seq. now rewrite Q. Qed.

Lemma tree_children_ok h t v : reached h -> seen h t = Some v -> gives (tree_children h (Object t)) (v_children v) (fun _ => None).
Proof.
  intros R E. destruct (always_forest h R t v E) as (LC & _). apply seen_node in E as (n & E & ->). cbn [view_of v_children v_arity] in *.
  refine (framed _ _ _ _ (wr_at (n_children n)) _). intro num. unfold tree_children, check_obj. cbn [call].
  assert (RD : read h t = Ok n) by exact (read_node _ _ _ E). rewrite RD. cbv [call]. replace (lenZ (n_children n)) with (Z.of_nat (n_arity n)) by (rewrite len_nat; lia). reflexivity.
Qed.

Lemma climbs {A : Type} h (what : node -> A) : forall k t filled l', climb what k h t filled = Ok l' ->
  exists l, l' = l ++ filled /\ length l = k /\
    forall old rest n, length old = k -> climbing h what k (Z.of_nat k) t (mkMem (Some (old ++ rest)) None n) = Next (mkMem (Some (l ++ rest)) None n).
Proof.
  induction k as [|k IH]; intros t filled l' C; cbn [climb] in C.
  - injection C as <-. exists []. split; [reflexivity|]. split; [reflexivity|]. intros [|y old] rest n L; [reflexivity|discriminate].
  - destruct t as [t|]; [|discriminate]. destruct (read h t) as [nd| |] eqn:RD; cbn [bind] in C; try discriminate.
    destruct (IH _ _ _ C) as (l & -> & L & W). exists (l ++ [what nd]). split; [now rewrite <- app_assoc|]. split; [rewrite app_length; cbn [length]; lia|].
    intros old rest n LO. destruct (@exists_last _ old) as (old0 & y & ->); [intros ->; discriminate|]. rewrite app_length in LO. cbn [length] in LO.
    cbn [climbing]. unfold call. rewrite RD. replace (Z.of_nat (S k) - 1) with (Z.of_nat k) by lia. rewrite <- app_assoc. cbn [app].
    rewrite (seq_next _ _ _ _ (store_a_at (what nd) old0 y rest None n (Z.of_nat k) ltac:(rewrite len_nat; lia))).
    rewrite W by lia. now rewrite <- app_assoc.
Qed.
Lemma up_gives {A : Type} (p : Z -> prog A unit) h (what : node -> A) pad t depth (items : list A) :
  climb what (length items) h (Some t) [] = Ok items -> depth = lenZ items ->
  (forall num, p num = (check_a num ;; nothing_asked ;;
     (when has_a (deny (num <? depth) ERR_INVALID_VALUE) ;; when has_n (store_n depth) ;;
      when has_a (climbing h what (length items) depth (Some t) ;; upto depth num (fun i => store_a i pad))))) ->
  gives p items (fun _ => pad).
Proof.
  intros C -> E num old n N R. rewrite E. clear E p. destruct (climbs h what _ _ _ _ C) as (l0 & E0 & _ & W). rewrite app_nil_r in E0. subst l0.
  unfold check_a, nothing_asked, deny_if. destruct old as [l|].
  - assert (R' : num <= lenZ l) by exact R.
    rewrite (seq_next _ _ _ (mkMem (Some l) None n)) by (cbn [m_a is_null]; now rewrite andb_false_r). rewrite (seq_next _ _ _ (mkMem (Some l) None n)) by reflexivity.
    destruct (Z.ltb_spec num (lenZ items)) as [L|L]; [left; split; [exact L|]; apply seq_stop; reflexivity|right]. split; [exact L|].
    eexists. split; [exact (result_fetched items (fun _ => pad) num l L R')|].
    rewrite (seq_next _ _ _ (mkMem (Some l) None n)) by reflexivity.
    rewrite (seq_next _ _ _ (mkMem (Some l) None (told n (lenZ items)))) by (destruct n; reflexivity).
    unfold when, has_a. cbn [m_a is_null negb]. rewrite <- (firstn_skipn (length items) l) at 1.
    rewrite (seq_next _ _ _ _ (W (firstn (length items) l) (skipn (length items) l) _ ltac:(rewrite firstn_length; rewrite !len_nat in *; lia))).
    unfold store_a. rewrite upto_pad; [reflexivity|reflexivity|]. rewrite !len_nat in *. rewrite skipn_length. lia.
  - destruct (Z.ltb_spec 0 num) as [P|P]; [right; split; [auto|]; apply seq_stop; reflexivity|].
    destruct n as [z|]; [left; split; [lia|]; split; [discriminate|]; reflexivity|right; split; [auto|]; reflexivity].
Qed.
Section Tree.
  Variable h : heap.
  Hypothesis R : reached h.
  Let F : forest h := always_forest h R.
  Lemma tree_position_ok root l t : is_root h root -> designates h root l t -> gives (tree_position h (Object t)) l (fun _ => 0%nat).
  Proof.
    intros Q D. pose proof (des_rooted h F _ _ _ _ D (root_rooted _ _ Q)) as RT. cbn [Nat.add] in RT.
    pose proof (climb_index h F root l t [] D) as C. rewrite app_nil_r in C.
    refine (up_gives _ h n_index 0%nat t (Z.of_nat (length l)) l C eq_refl _). intro num. unfold tree_position, check_obj. cbv [call]. rewrite (depth_ok h t _ RT). reflexivity.
  Qed.
  Lemma tree_values_ok root l t vs : is_root h root -> designates h root l t -> values_along h root l vs ->
    gives (tree_values h (Object t)) vs (fun _ => ccs_none).
  Proof.
    intros Q D V. pose proof (des_rooted h F _ _ _ _ D (root_rooted _ _ Q)) as RT. cbn [Nat.add] in RT.
    pose proof (climb_value h F root l t vs [] D V) as C. rewrite app_nil_r in C. pose proof (along_length h root l vs V) as LV.
    rewrite <- LV in C. refine (up_gives _ h n_value ccs_none t (Z.of_nat (length l) + 1) vs C ltac:(rewrite len_nat; lia) _).
    intro num. unfold tree_values, check_obj. cbv [call]. rewrite (depth_ok h t _ RT), LV. reflexivity.
  Qed.

  Lemma descends : forall position t n pre old c, node_at h t = Some n -> (length position <= length old)%nat ->
    (exists ds, values_along h t position (n_value n :: ds) /\
       descending h t (lenZ pre) position (mkMem (Some (pre ++ old)) None c) = Next (mkMem (Some (pre ++ ds ++ skipn (length ds) old)) None c)) \/
    (exists l1 l2 ds code, position = l1 ++ l2 /\ values_along h t l1 (n_value n :: ds) /\
       descending h t (lenZ pre) position (mkMem (Some (pre ++ old)) None c) = Stop code (mkMem (Some (pre ++ ds ++ skipn (length ds) old)) None c) /\
       ((code = ERR_INVALID_TREE /\ breaks h t position) \/ (code = ERR_OUT_OF_BOUNDS /\ strays h t position))).
  Proof.
    pose proof (reached_inv _ R) as (_ & SH & _).
    induction position as [|i position IH]; intros t n pre old c E L.
    - left. exists []. split; [|reflexivity]. apply (along_here h t (view_of n)). now apply seen_of.
    - cbn [descending]. unfold get_child. rewrite (read_node _ _ _ E). cbn [bind]. assert (AL : alive h t) by (apply alive_node; eauto).
      destruct (Nat.leb_spec (n_arity n) i) as [I|I]; cbn [refute bind].
      + right. exists [], (i :: position), [], ERR_OUT_OF_BOUNDS. split; [reflexivity|]. split; [apply (along_here h t (view_of n)); now apply seen_of|]. split; [reflexivity|].
        right. split; [reflexivity|]. exists [], i, position, t, (view_of n). split; [reflexivity|]. split; [now constructor|]. split; [now apply seen_of|exact I].
      + pose proof (child_error h SH n t i E I) as C. cbv [call]. destruct (nth i (n_children n) None) as [d|].
        * destruct (child_alive h F t n i d E C) as (m & Em). rewrite (read_node _ _ _ Em).
          destruct old as [|y old]; cbn [length] in L; [lia|].
          rewrite (seq_next _ _ _ _ (store_a_at (n_value m) pre y old None c (lenZ pre) eq_refl)). rewrite (snoc_app pre (n_value m)). rewrite <- lenZ_snoc with (x := n_value m).
          destruct (IH d m (pre ++ [n_value m]) old c Em ltac:(lia)) as [(ds & A & ->)|(l1 & l2 & ds & code & -> & A & -> & B)].
          -- left. exists (n_value m :: ds). split; [apply (along_down h t (view_of n) i d); [now apply seen_of|exact C|exact A]|]. cbn [length skipn]. now rewrite <- app_assoc.
          -- right. exists (i :: l1), l2, (n_value m :: ds), code. split; [reflexivity|]. split; [apply (along_down h t (view_of n) i d); [now apply seen_of|exact C|exact A]|].
             split; [cbn [length skipn]; now rewrite <- app_assoc|].
             destruct B as [[-> (k1 & k2 & EK & l' & j & e & v & -> & D & Ed & N)]|[-> (k1 & j & k2 & e & v & EK & D & Ed & N)]]; [left|right]; (split; [reflexivity|]); rewrite EK.
             ++ exists ((i :: l') ++ [j]), k2. split; [reflexivity|]. exists (i :: l'), j, e, v. split; [reflexivity|]. split; [|auto].
                eapply des_down; [apply (seen_of _ _ _ E)|exact C|exact D].
             ++ exists (i :: k1), j, k2, e, v. split; [reflexivity|]. split; [|auto]. eapply des_down; [apply (seen_of _ _ _ E)|exact C|exact D].
        * right. exists [], (i :: position), [], ERR_INVALID_TREE. split; [reflexivity|]. split; [apply (along_here h t (view_of n)); now apply seen_of|]. split; [reflexivity|].
          left. split; [reflexivity|]. exists [i], position. split; [reflexivity|]. exists [], i, t, (view_of n). split; [reflexivity|]. split; [now constructor|]. split; [now apply seen_of|exact C].
  Qed.
  Lemma tree_values_at_ok t position num old n : alive h t -> roomy num old ->
    let m := mkMem old None n in
    (num <= lenZ position /\ tree_values_at h (Object t) position num m = Stop ERR_INVALID_VALUE m) \/
    (lenZ position < num /\ old = None /\ tree_values_at h (Object t) position num m = Stop ERR_INVALID_VALUE m) \/
    (lenZ position < num /\ exists l, old = Some l /\
      ((exists vs l', values_along h t position vs /\ fetched vs (fun _ => ccs_none) num l l' /\
          tree_values_at h (Object t) position num m = Next (mkMem (Some l') None n)) \/
       (exists l1 l2 vs l' code, position = l1 ++ l2 /\ values_along h t l1 vs /\ fetched vs (fun x => x) (lenZ vs) l l' /\
          tree_values_at h (Object t) position num m = Stop code (mkMem (Some l') None n) /\
          ((code = ERR_INVALID_TREE /\ breaks h t position) \/ (code = ERR_OUT_OF_BOUNDS /\ strays h t position))))).
  Proof.
    intros A RO m. subst m. apply alive_node in A as (nd & E). unfold tree_values_at, check_obj.
    destruct (Z.ltb_spec num (lenZ position + 1)) as [L|L].
    - left. split; [lia|]. destruct old as [l|].
      + rewrite (seq_next _ _ _ (mkMem (Some l) None n)) by (unfold check_a, deny_if; cbn [m_a is_null]; now rewrite andb_false_r). reflexivity.
      + unfold check_a, deny_if. destruct (Z.ltb_spec 0 num); [apply seq_stop; reflexivity|]. rewrite (seq_next _ _ _ (mkMem None None n)) by reflexivity. reflexivity.
    - right. destruct old as [l|].
      + right. split; [lia|]. exists l. split; [reflexivity|]. cbn [roomy] in RO.
        assert (LL : (S (length position) <= length l)%nat) by (rewrite !len_nat in *; lia). destruct l as [|y l]; cbn [length] in LL; [lia|].
        rewrite (seq_next _ _ _ (mkMem (Some (y :: l)) None n)) by (unfold check_a, deny_if; cbn [m_a is_null]; now rewrite andb_false_r).
        rewrite (seq_next _ _ _ (mkMem (Some (y :: l)) None n)) by reflexivity.
        rewrite (seq_next _ _ _ (mkMem (Some (n_value nd :: l)) None n)) by (unfold call; rewrite (read_node _ _ _ E); exact (store_a_at (n_value nd) [] y l None n 0 eq_refl)).
        destruct (descends position t nd [n_value nd] l n E ltac:(lia)) as [(ds & V & W)|(l1 & l2 & ds & code & -> & V & W & B)].
        * left. pose proof (along_length h t position _ V) as LV. cbn [length] in LV.
          assert (LZ : lenZ position + 1 = lenZ (n_value nd :: ds)) by (rewrite !len_nat; cbn [length]; lia).
          exists (n_value nd :: ds). eexists. split; [exact V|]. split; [exact (result_fetched (n_value nd :: ds) (fun _ => ccs_none) num (y :: l) ltac:(lia) RO)|].
          rewrite (seq_next _ _ _ _ W). rewrite LZ. unfold store_a. rewrite app_assoc. rewrite (upto_pad (fun _ => ccs_none)); [reflexivity|reflexivity|].
          rewrite !len_nat in *. rewrite ?app_length, skipn_length. cbn [length app] in *. lia.
        * right. pose proof (along_length h t l1 _ V) as LV. cbn [length] in LV. rewrite app_length in LL.
          exists l1, l2, (n_value nd :: ds). eexists. exists code. split; [reflexivity|]. split; [exact V|].
          split; [exact (result_fetched (n_value nd :: ds) (fun x => x) (lenZ (n_value nd :: ds)) (y :: l) ltac:(lia) ltac:(rewrite !len_nat; cbn [length]; lia))|].
          split; [|exact B]. rewrite Z.sub_diag. cbn [Z.to_nat firstn map skipn length app]. apply seq_stop. exact W.
      + left. split; [lia|]. split; [reflexivity|]. unfold check_a, deny_if. rewrite !len_nat in *. destruct (Z.ltb_spec 0 num); [apply seq_stop; reflexivity|lia].
  Qed.
End Tree.

(** *** Objectives *)
Lemma each_calls (n : option Z) : forall ds rest i pre old, i = lenZ pre -> (length ds <= length old)%nat ->
  each (map Ok ds ++ rest) i (fun i r => call r (fun d => store_a i d)) (mkMem (A := datum) (B := unit) (Some (pre ++ old)) None n) =
  each rest (i + lenZ ds) (fun i r => call r (fun d => store_a i d)) (mkMem (Some (pre ++ ds ++ skipn (length ds) old)) None n).
Proof.
  induction ds as [|d ds IH]; intros rest i pre old E L; [cbn; now rewrite Z.add_0_r|].
  destruct old as [|y old]; cbn [length] in L; [lia|]. cbn [map Datatypes.app each].
  rewrite (seq_next (call (Ok d) (fun d0 : datum => store_a i d0)) _ _ _ (store_a_at d pre y old None n i E)). rewrite (snoc_app pre d). rewrite (IH rest (i + 1) (pre ++ [d]) old) by (rewrite ?lenZ_snoc; lia).
  cbn [length skipn]. rewrite <- app_assoc. f_equal. rewrite !len_nat. cbn [length]. lia.
Qed.
Lemma each_overruns (n : option Z) : forall ds i pre old, i = lenZ pre -> (length old < length ds)%nat ->
  each (map Ok ds) i (fun i r => call r (fun d => store_a i d)) (mkMem (A := datum) (B := unit) (Some (pre ++ old)) None n) = Undef UBBounds.
Proof.
  induction ds as [|d ds IH]; intros i pre old E L; cbn [length] in L; [lia|]. destruct old as [|y old]; cbn [map each].
  - unfold seq, call, store_a, update_a. cbn [m_a]. unfold cell. subst i. rewrite len_nat. destruct (Z.ltb_spec (Z.of_nat (length pre)) 0); [lia|]. rewrite Nat2Z.id, app_nil_r.
    replace (nth_error pre (length pre)) with (@None datum); [reflexivity|]. symmetry. now apply nth_error_None.
  - rewrite (seq_next (call (Ok d) (fun d0 : datum => store_a i d0)) _ _ _ (store_a_at d pre y old None n i E)). rewrite (snoc_app pre d). apply IH; [rewrite lenZ_snoc; lia|cbn [length] in L; lia].
Qed.
Lemma objective_values_ok objectives num l n : 0 <= num <= lenZ l ->
  let m := mkMem (Some l) None n in let p := objective_values (Object objectives) num in
  (lenZ objectives < num -> p m = Stop ERR_INVALID_VALUE m) /\
  (forall ds, objectives = map Ok ds -> num <= lenZ ds -> lenZ ds <= lenZ l -> exists l', fetched ds (fun x => x) (lenZ ds) l l' /\ p m = Next (mkMem (Some l') None (told n (lenZ ds)))) /\
  (forall ds, objectives = map Ok ds -> lenZ l < lenZ ds -> p m = Undef UBBounds) /\
  (forall ds c rest, objectives = map Ok ds ++ Err c :: rest -> num <= lenZ objectives -> lenZ ds <= lenZ l ->
     exists l', fetched ds (fun x => x) (lenZ ds) l l' /\ p m = Stop c (mkMem (Some l') None n)).
Proof.
  intros L m p. subst m p. unfold objective_values, check_obj.
  assert (H1 : check_a num (mkMem (A := datum) (B := unit) (Some l) None n) = Next (mkMem (Some l) None n)) by (unfold check_a, deny_if; cbn [m_a is_null]; now rewrite andb_false_r).
  split; [|split; [|split]].
  - intro G. rewrite (seq_next _ _ _ _ H1). rewrite (seq_next _ _ _ (mkMem (Some l) None n)) by reflexivity. apply seq_stop. unfold when, has_a. cbn [m_a is_null negb].
    apply seq_stop. unfold deny. destruct (Z.ltb_spec (lenZ objectives) num); [reflexivity|lia].
  - intros ds -> LN LD. eexists. split; [exact (result_fetched ds (fun x => x) (lenZ ds) l ltac:(lia) LD)|].
    rewrite (seq_next _ _ _ _ H1). rewrite (seq_next _ _ _ (mkMem (Some l) None n)) by reflexivity. rewrite lenZ_map.
    rewrite Z.sub_diag. cbn [Z.to_nat firstn map skipn Datatypes.app].
    erewrite (seq_next _ _ _ (mkMem (Some (ds ++ skipn (length ds) l)) None n)); [destruct n; reflexivity|]. unfold when, has_a. cbn [m_a is_null negb].
    rewrite (seq_next _ _ _ (mkMem (Some l) None n)) by (unfold deny; destruct (Z.ltb_spec (lenZ ds) num); [lia|reflexivity]).
    pose proof (each_calls n ds [] 0 [] l eq_refl ltac:(rewrite !len_nat in *; lia)) as EC. rewrite app_nil_r in EC. rewrite (seq_next _ _ _ _ EC).
    unfold upto. replace (Z.to_nat (num - lenZ ds)) with 0%nat by lia. reflexivity.
  - intros ds -> LD. rewrite (seq_next _ _ _ _ H1). rewrite (seq_next _ _ _ (mkMem (Some l) None n)) by reflexivity. rewrite lenZ_map. unfold seq at 1. unfold when, has_a. cbn [m_a is_null negb].
    rewrite (seq_next _ _ _ (mkMem (Some l) None n)) by (unfold deny; destruct (Z.ltb_spec (lenZ ds) num); [lia|reflexivity]). unfold seq at 1.
    pose proof (each_overruns n ds 0 [] l eq_refl ltac:(rewrite !len_nat in *; lia)) as EO. cbn [Datatypes.app] in EO. rewrite EO. reflexivity.
  - intros ds c rest -> LN LD. eexists. split; [exact (result_fetched ds (fun x => x) (lenZ ds) l ltac:(lia) LD)|].
    rewrite (seq_next _ _ _ _ H1). rewrite (seq_next _ _ _ (mkMem (Some l) None n)) by reflexivity. apply seq_stop. unfold when, has_a. cbn [m_a is_null negb].
    rewrite (seq_next _ _ _ (mkMem (Some l) None n)) by (unfold deny; destruct (Z.ltb_spec (lenZ (map Ok ds ++ Err c :: rest)) num); [lia|reflexivity]). apply seq_stop.
    pose proof (each_calls n ds (Err c :: rest) 0 [] l eq_refl ltac:(rewrite !len_nat in *; lia)) as EC. cbn [Datatypes.app] in EC. rewrite EC.
    rewrite Z.sub_diag. reflexivity.
Qed.
Lemma objective_counts objectives num n : 0 <= num ->
  let m := mkMem None None n in let p := objective_values (Object objectives) num in
  (num = 0 /\ n <> None /\ p m = Next (mkMem None None (told n (lenZ objectives)))) \/
  ((0 < num \/ n = None) /\ p m = Stop ERR_INVALID_VALUE m).
Proof.
  intros N m p. subst m p. unfold objective_values, check_obj, check_a, deny_if. destruct (Z.ltb_spec 0 num) as [P|P]; [right; split; [auto|]; apply seq_stop; reflexivity|].
  destruct n as [z|]; [left; split; [lia|]; split; [discriminate|]; reflexivity|right; split; [auto|]; reflexivity].
Qed.

(** *** Two calls *)
Lemma two_calls {A : Type} (p : Z -> prog A unit) items pad z : gives p items pad ->
  p 0 (mkMem None None (Some z)) = Next (mkMem None None (Some (lenZ items))) /\
  forall old n, lenZ old = lenZ items -> p (lenZ items) (mkMem (Some old) None n) = Next (mkMem (Some items) None (told n (lenZ items))).
Proof.
  intro G. split.
  - destruct (G 0 None (Some z) ltac:(lia) Logic.I) as [(_ & _ & E)|[[Q|Q] _]]; [exact E|lia|discriminate].
  - intros old n L. assert (P : 0 <= lenZ items) by (rewrite len_nat; lia).
    destruct (G (lenZ items) (Some old) n P ltac:(cbn; lia)) as [[Q _]|(_ & l' & F & E)]; [lia|]. rewrite E. do 3 f_equal.
    destruct F as [FS FI _ _]. rewrite !len_nat in L. assert (LL : length l' = length items) by lia. clear -FI LL. revert l' FI LL.
    induction items as [|x items IH]; intros [|y l'] FI LL; cbn [length] in LL; try lia; [reflexivity|].
    pose proof (FI 0%nat x eq_refl) as E0. injection E0 as ->. f_equal. apply IH; [|lia]. intros i z N. exact (FI (S i) z N).
Qed.

(** *** Objects of other types *)
Lemma objects_refused :
  refuses (context_parameters NoObject) ERR_INVALID_OBJECT /\ refuses (space_conditions NoObject) ERR_INVALID_OBJECT /\
  refuses (space_forbidden_clauses NoObject) ERR_INVALID_OBJECT /\ refuses (space_objectives NoObject) ERR_INVALID_OBJECT /\
  refuses (binding_values NoObject) ERR_INVALID_OBJECT /\
  refuses (mixture_distributions NoObject) ERR_INVALID_OBJECT /\ refuses (mixture_distributions OtherKind) ERR_INVALID_DISTRIBUTION /\
  refuses (multivariate_distributions NoObject) ERR_INVALID_OBJECT /\ refuses (multivariate_distributions OtherKind) ERR_INVALID_DISTRIBUTION /\
  refuses (mixture_weights NoObject) ERR_INVALID_OBJECT /\ refuses (mixture_weights OtherKind) ERR_INVALID_DISTRIBUTION /\
  refuses (roulette_areas NoObject) ERR_INVALID_OBJECT /\ refuses (roulette_areas OtherKind) ERR_INVALID_DISTRIBUTION /\
  refuses (expression_nodes NoObject) ERR_INVALID_OBJECT /\ refuses (expression_parameters NoObject) ERR_INVALID_OBJECT /\
  refuses (map_keys NoObject) ERR_INVALID_OBJECT /\ refuses (map_values NoObject) ERR_INVALID_OBJECT /\ refuses (map_pairs NoObject) ERR_INVALID_OBJECT /\
  refuses (possible_values NoObject) ERR_INVALID_OBJECT /\ refuses (possible_values OtherKind) ERR_INVALID_PARAMETER /\
  (forall h, refuses (tree_children h NoObject) ERR_INVALID_OBJECT /\ refuses (tree_position h NoObject) ERR_INVALID_OBJECT /\
     refuses (tree_values h NoObject) ERR_INVALID_OBJECT /\ forall position, refuses (tree_values_at h NoObject position) ERR_INVALID_OBJECT) /\
  refuses (configuration_position NoObject) ERR_INVALID_OBJECT /\ refuses (tuner_evaluations NoObject) ERR_INVALID_OBJECT /\
  (forall f, refuses (features_evaluations NoObject f) ERR_INVALID_OBJECT) /\ refuses (objective_values NoObject) ERR_INVALID_OBJECT.
Proof. unfold refuses. repeat split. Qed.
