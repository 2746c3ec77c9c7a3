(** Each function that fills an array. *)
From Coq Require Import ZArith List Bool Lia Sorted.
From Verif Require Import Base Datum CodecModel FloatModel FloatSpec DistModel CmpSpec TreeModel TreeSpec TreeHeap TreeRep TreeSteps TreeNav GetterModel GetterSpec GetterProofs.
Import ListNotations.
Open Scope Z_scope.

Lemma lenZ_map {A B : Type} (f : A -> B) l : lenZ (map f l) = lenZ l.
Proof. rewrite !len_nat. now rewrite map_length. Qed.
Lemma wr_each {A T : Type} (f : T -> A) (l : list T) : wr (map f l) (each l 0 (fun j x => store_a j (f x))).
Proof. intros old n L. rewrite map_length in *. exact (each_writes f None n l 0 [] old eq_refl L). Qed.
Lemma wr_at {A : Type} (l : list A) : wr l (upto 0 (lenZ l) (fun i => at_ l i (store_a i))).
Proof. intros old n L. exact (upto_copy (fun j => at_ l j) l None n old (lenZ l) (fun i x N k m => at_reads l i x N k m) eq_refl L). Qed.
Lemma wr_memcpy {A : Type} (l : list A) : wr l (memcpy_a l).
Proof. intros old n L. unfold memcpy_a. cbn [m_a m_b m_n]. rewrite !len_nat. destruct (Z.ltb_spec (Z.of_nat (length old)) (Z.of_nat (length l))); [lia|reflexivity]. Qed.
Lemma no_object {T A B : Type} kind (k : Z -> T -> prog A B) : refuses (fun num => check_obj kind NoObject (k num)) ERR_INVALID_OBJECT.
Proof. intros num m. reflexivity. Qed.
Lemma other_kind {T A B : Type} kind (k : Z -> T -> prog A B) : refuses (fun num => check_obj kind OtherKind (k num)) kind.
Proof. intros num m. reflexivity. Qed.

Lemma context_parameters_ok ws : gives (context_parameters (Object ws)) (map wr_parameter ws) (fun _ => 0).
Proof. refine (framed _ _ _ _ (wr_each wr_parameter ws) _). intro num. rewrite lenZ_map. reflexivity. Qed.
Lemma space_conditions_ok ws : gives (space_conditions (Object ws)) (map wr_condition ws) (fun _ => 0).
Proof. refine (framed _ _ _ _ (wr_each wr_condition ws) _). intro num. rewrite lenZ_map. reflexivity. Qed.
Lemma space_forbidden_clauses_ok l : gives (space_forbidden_clauses (Object l)) l (fun _ => 0).
Proof. pose proof (wr_each (fun e : Z => e) l) as W. rewrite map_id in W. refine (framed _ _ _ _ W _). reflexivity. Qed.
Lemma binding_values_ok l : gives (binding_values (Object l)) l (fun d => mkDatum VNone (d_flags d)).
Proof. refine (framed _ _ _ _ (wr_memcpy l) _). reflexivity. Qed.

Lemma mixture_distributions_ok d : gives (mixture_distributions (Object d)) (pt_distributions d) (fun _ => 0).
Proof. refine (framed _ _ _ _ (wr_at (pt_distributions d)) _). reflexivity. Qed.
Lemma multivariate_distributions_ok l : gives (multivariate_distributions (Object l)) l (fun _ => 0).
Proof. refine (framed _ _ _ _ (wr_at l) _). reflexivity. Qed.
Lemma wr_steps table items : steps_of table items ->
  wr items (upto 0 (lenZ items) (fun i => at_ table (i + 1) (fun b => at_ table i (fun a => store_a i (fsub b a))))).
Proof.
  intros (LT & S) old n L.
  refine (upto_copy (fun j k => at_ table (j + 1) (fun b => at_ table j (fun a => k (fsub b a)))) items None n old (lenZ items) _ eq_refl L).
  intros i x N k m.
  assert (LI : (i < length items)%nat) by (apply nth_error_Some; congruence).
  destruct (nth_error table i) as [a|] eqn:EA; [|apply nth_error_None in EA; lia].
  destruct (nth_error table (Datatypes.S i)) as [b|] eqn:EB; [|apply nth_error_None in EB; lia].
  replace (Z.of_nat i + 1) with (Z.of_nat (Datatypes.S i)) by lia. rewrite (at_reads table (Datatypes.S i) b EB). rewrite (at_reads table i a EA).
  rewrite (S i a b EA EB) in N. injection N as <-. reflexivity.
Qed.
Lemma mixture_weights_ok ds ws items : length items = length ds -> steps_of ws items ->
  gives (mixture_weights (Object (mkParts ds ws))) items (fun _ => 0).
Proof.
  intros L S. refine (framed _ _ _ _ (wr_steps ws items S) _). intro num. unfold mixture_weights, check_obj. cbn [pt_distributions pt_weights].
  replace (lenZ ds) with (lenZ items) by (rewrite !len_nat; lia). reflexivity.
Qed.
Lemma roulette_areas_ok size table items : size = lenZ items -> steps_of table items ->
  gives (roulette_areas (Object (size, table))) items (fun _ => 0).
Proof. intros -> S. refine (framed _ _ _ _ (wr_steps table items S) _). reflexivity. Qed.

Lemma expression_nodes_ok l : gives (expression_nodes (Object l)) l (fun _ => 0).
Proof. refine (framed _ _ _ _ (wr_at l) _). reflexivity. Qed.
Lemma map_keys_ok l : gives (map_keys (Object l)) (map snd l) (fun _ => ccs_none).
Proof. refine (framed _ _ _ _ (wr_each snd l) _). intro num. rewrite lenZ_map. reflexivity. Qed.
Lemma map_values_ok l : gives (map_values (Object l)) (map snd l) (fun _ => ccs_none).
Proof. refine (framed _ _ _ _ (wr_each snd l) _). intro num. rewrite lenZ_map. reflexivity. Qed.

(** *** Without padding *)
Lemma copy_only {A : Type} (items : list A) (copy : prog A unit) : wr items copy ->
  forall num old n, lenZ items <= num -> num <= lenZ old ->
  exists l', fetched items (fun x => x) num old l' /\ copy (mkMem (Some old) None n) = Next (mkMem (Some l') None n).
Proof.
  intros C num old n L R. eexists. split; [exact (result_fetched items (fun x => x) num old L R)|].
  rewrite C by (rewrite !len_nat in *; lia). now rewrite map_id, firstn_skipn.
Qed.
Lemma possible_values_ok l : gives (possible_values (Object l)) l (fun x => x).
Proof.
  apply (frame_gives (possible_values (Object l)) l (fun x => x) (fun num => upto 0 (lenZ l) (fun i => at_ l i (store_a i)) ;; upto num (lenZ l) (fun i => store_a i ccs_none))).
  - intros num old n L R. destruct (copy_only l _ (wr_at l) num old n L R) as (l' & F & E). exists l'. split; [exact F|]. unfold seq at 1. rewrite E.
    unfold upto at 1. replace (Z.to_nat (lenZ l - num)) with 0%nat by lia. reflexivity.
  - reflexivity.
Qed.
Lemma configuration_position_ok l : gives (configuration_position (Object l)) l (fun x => x).
Proof. apply (frame_gives _ l (fun x => x) (fun num => memcpy_a l)); [exact (copy_only l _ (wr_memcpy l))|reflexivity]. Qed.

(** *** Choosing *)
Lemma once_store l : forall previous pre old n, StronglySorted Z.le l -> (forall x, In x l -> previous <= x) ->
  exists items, StronglySorted Z.lt items /\ (forall x, In x items -> previous < x) /\
    (forall x, In x items <-> In x l /\ x <> previous) /\ count_distinct previous l = lenZ items /\
    ((length items <= length old)%nat ->
     store_distinct previous (lenZ pre) l (mkMem (Some (pre ++ old)) None n) = Next (mkMem (Some (pre ++ items ++ skipn (length items) old)) None n)).
Proof.
  induction l as [|h l IH]; intros previous pre old n SL PB.
  - exists []. split; [constructor|]. split; [intros x []|]. split; [intro x; cbn; tauto|]. split; [reflexivity|]. intros _. reflexivity.
  - inversion SL as [|h' l' SL' FA]; subst. rewrite Forall_forall in FA. cbn [count_distinct store_distinct].
    destruct (Z.eqb_spec h previous) as [->|NE]; cbn [negb].
    + destruct (IH previous pre old n SL' (fun x I => PB x (or_intror I))) as (items & S & B & M & C & W). exists items.
      split; [exact S|]. split; [exact B|]. split; [|split; [exact C|exact W]]. intro x. rewrite M. cbn [In]. split; [tauto|]. intros [[E|I] N]; [congruence|tauto].
    + assert (PH : previous < h) by (pose proof (PB h (or_introl eq_refl)); lia).
      destruct old as [|y old].
      * destruct (IH h (pre ++ [h]) [] n SL' FA) as (items & S & B & M & C & W). exists (h :: items).
        split; [constructor; [exact S|rewrite Forall_forall; exact B]|].
        split; [intros x [<-|I]; [exact PH|pose proof (B x I); lia]|].
        split. { intro x. split; [intros [<-|I]; [split; [now left|lia]|apply M in I as [I _]; split; [now right|pose proof (FA x I); lia]]|].
          intros [[<-|I] N]; [now left|]. destruct (Z.eq_dec x h) as [->|NX]; [now left|right; apply M; auto]. }
        split; [rewrite C, !len_nat; cbn [length]; lia|]. cbn [length]. lia.
      * destruct (IH h (pre ++ [h]) old n SL' FA) as (items & S & B & M & C & W). exists (h :: items).
        split; [constructor; [exact S|rewrite Forall_forall; exact B]|].
        split; [intros x [<-|I]; [exact PH|pose proof (B x I); lia]|].
        split. { intro x. split; [intros [<-|I]; [split; [now left|lia]|apply M in I as [I _]; split; [now right|pose proof (FA x I); lia]]|].
          intros [[<-|I] N]; [now left|]. destruct (Z.eq_dec x h) as [->|NX]; [now left|right; apply M; auto]. }
        split; [rewrite C, !len_nat; cbn [length]; lia|]. cbn [length]. intro L.
        unfold seq. rewrite (store_a_at h pre y old None n (lenZ pre) eq_refl). rewrite (snoc_app pre h). rewrite <- lenZ_snoc with (x := h).
        rewrite W by lia. now rewrite <- app_assoc.
Qed.
Lemma sorted_det : forall l k, StronglySorted Z.lt l -> StronglySorted Z.lt k -> (forall x, In x l <-> In x k) -> l = k.
Proof.
  induction l as [|a l IH]; intros [|b k] SL SK E; [reflexivity|exfalso; apply (proj2 (E b)); now left|exfalso; apply (proj1 (E a)); now left|].
  inversion SL as [|? ? SL' FL]; subst. inversion SK as [|? ? SK' FK]; subst. rewrite Forall_forall in FL, FK.
  assert (a = b).
  { destruct (proj1 (E a) (or_introl eq_refl)) as [->|IA]; [reflexivity|]. destruct (proj2 (E b) (or_introl eq_refl)) as [->|IB]; [reflexivity|].
    pose proof (FL b IB). pose proof (FK a IA). lia. }
  subst b. f_equal. apply IH; auto. intro x. split; intro I.
  - destruct (proj1 (E x) (or_intror I)) as [<-|J]; [pose proof (FL a I); lia|exact J].
  - destruct (proj2 (E x) (or_intror I)) as [<-|J]; [pose proof (FK a I); lia|exact J].
Qed.
Lemma expression_parameters_ok l items : StronglySorted Z.le l -> (forall x, In x l -> 0 < x) -> each_once l items ->
  gives (expression_parameters (Object l)) items (fun _ => 0).
Proof.
  intros SL P (SI & MI).
  assert (K : forall old n, exists its, its = items /\ count_distinct 0 l = lenZ items /\ ((length its <= length old)%nat ->
    store_distinct 0 0 l (mkMem (Some old) None n) = Next (mkMem (Some (its ++ skipn (length its) old)) None n))).
  { intros old n. destruct (once_store l 0 [] old n SL (fun x I => Z.lt_le_incl _ _ (P x I))) as (its & S & B & M & C & W). exists its.
    assert (its = items).
    { apply sorted_det; auto. intro x. rewrite M, MI. split; [tauto|]. intro I. split; [exact I|]. pose proof (P x I). lia. }
    subst its. split; [reflexivity|]. split; [exact C|exact W]. }
  assert (CN : (if 0 <? lenZ l then count_distinct 0 l else 0) = lenZ items).
  { destruct (K [] None) as (its0 & _ & C & _). destruct (Z.ltb_spec 0 (lenZ l)); [exact C|]. destruct l as [|x0 l]; [exact C|]. rewrite len_nat in *. cbn [length] in *. lia. }
  assert (WR : wr items (store_distinct 0 0 l)) by (intros old n L; destruct (K old n) as (its & -> & _ & W); exact (W L)).
  refine (framed _ _ _ _ WR _). intro num. unfold expression_parameters, check_obj. cbv zeta. rewrite CN. reflexivity.
Qed.
Lemma same_store l items : selected l items -> count_same l = lenZ items /\
  (forall pre old n, (length items <= length old)%nat ->
   store_same (lenZ pre) l (mkMem (Some (pre ++ old)) None n) = Next (mkMem (Some (pre ++ items ++ skipn (length items) old)) None n)).
Proof.
  induction 1 as [|e l items S [C W]|e c l items N S [C W]]; cbn [count_same store_same fst snd].
  - split; reflexivity.
  - cbn [Z.eqb]. split; [rewrite C, !len_nat; cbn [length]; lia|]. intros pre [|y old] n L; cbn [length] in L; [lia|].
    unfold seq. rewrite (store_a_at e pre y old None n (lenZ pre) eq_refl). rewrite (snoc_app pre e). rewrite <- lenZ_snoc with (x := e).
    rewrite W by lia. cbn [length skipn]. now rewrite <- app_assoc.
  - destruct (Z.eqb_spec c 0); [contradiction|]. auto.
Qed.
Lemma tuner_evaluations_ok l : gives (tuner_evaluations (Object l)) l (fun _ => 0).
Proof. pose proof (wr_each (fun e : Z => e) l) as W. rewrite map_id in W. refine (framed _ _ _ _ W _). reflexivity. Qed.
Lemma features_all_ok l : gives (features_evaluations (Object l) None) (map fst l) (fun _ => 0).
Proof. refine (framed _ _ _ _ (wr_each fst l) _). intro num. rewrite lenZ_map. reflexivity. Qed.
Lemma features_some_ok l items : selected l items -> gives (features_evaluations (Object l) (Some (Object tt))) items (fun _ => 0).
Proof.
  intro S. destruct (same_store l items S) as [C W].
  refine (framed _ items (fun _ => 0) (store_same 0 l) (fun old n L => W [] old n L) _).
  intro num. unfold features_evaluations, check_obj. cbv zeta. rewrite C. reflexivity.
Qed.
Lemma features_bad l f : f <> Object tt -> refuses (features_evaluations (Object l) (Some f)) ERR_INVALID_OBJECT.
Proof. intros N num m. destruct f as [| |[]]; [reflexivity|reflexivity|congruence]. Qed.

(** *** Two arrays *)
Lemma both_filled {A B T : Type} (l : list T) (f : T -> A) (g : T -> B) pa pb num la lb n : lenZ l <= num -> num <= lenZ la -> num <= lenZ lb ->
  forall (last : prog A B), (forall a b, last (mkMem a b n) = Next (mkMem a b (told n (lenZ l)))) ->
  exists l' k',
    fetched (map fst (map (fun x => (f x, g x)) l)) (fun _ => pa) num la l' /\ fetched (map snd (map (fun x => (f x, g x)) l)) (fun _ => pb) num lb k' /\
    (when has_a (deny false ERR_INVALID_VALUE ;;
                 each l 0 (fun i x => store_a i (f x) ;; store_b i (g x)) ;;
                 upto (lenZ l) num (fun i => store_a i pa ;; store_b i pb)) ;; last) (mkMem (Some la) (Some lb) n)
    = Next (mkMem (Some l') (Some k') (told n (lenZ l))).
Proof.
  intros L RA RB last LAST. rewrite !map_map. cbn [fst snd].
  pose proof (result_fetched (map f l) (fun _ => pa) num la) as FA. pose proof (result_fetched (map g l) (fun _ => pb) num lb) as FB.
  cbv zeta in FA, FB. rewrite (map_length f), (lenZ_map f) in FA. rewrite (map_length g), (lenZ_map g) in FB. specialize (FA L RA). specialize (FB L RB).
  do 2 eexists. split; [exact FA|]. split; [exact FB|].
  assert (LA : (length l <= length la)%nat) by (rewrite !len_nat in *; lia). assert (LB : (length l <= length lb)%nat) by (rewrite !len_nat in *; lia).
  assert (SN : forall (q r : prog A B) m m', q m = Next m' -> seq q r m = r m') by (intros q r m m' Q; unfold seq; now rewrite Q).
  rewrite <- LAST. apply SN. unfold when, has_a. cbn [m_a is_null negb].
  rewrite (SN _ _ _ (mkMem (Some la) (Some lb) n)) by reflexivity.
  rewrite (SN _ _ _ _ (each2_writes f g n l 0 [] la [] lb eq_refl eq_refl LA LB)). unfold upto. cbn [app].
  apply times_pad2; rewrite ?lenZ_map, ?skipn_length; rewrite ?len_nat in *; lia || reflexivity.
Qed.
Lemma frame_both {A B T : Type} (p : Z -> prog A B) (l : list T) (f : T -> A) (g : T -> B) pa pb :
  (forall num, p num = (check_a num ;; check_b num ;; nothing_asked ;;
     (when has_a (deny (num <? lenZ l) ERR_INVALID_VALUE ;;
                  each l 0 (fun i x => store_a i (f x) ;; store_b i (g x)) ;;
                  upto (lenZ l) num (fun i => store_a i pa ;; store_b i pb)) ;; when has_n (store_n (lenZ l))))) ->
  gives_both p (map (fun x => (f x, g x)) l) pa pb.
Proof.
  intros E num a b n N RA RB. rewrite E. rewrite lenZ_map. clear E p.
  assert (SN : forall (q r : prog A B) m m', q m = Next m' -> seq q r m = r m') by (intros q r m m' Q; unfold seq; now rewrite Q).
  assert (SS : forall (q r : prog A B) m c m', q m = Stop c m' -> seq q r m = Stop c m') by (intros q r m c m' Q; unfold seq; now rewrite Q).
  assert (CA : forall m : mem A B, check_a num m = if (0 <? num) && is_null (m_a m) then Stop ERR_INVALID_VALUE m else Next m) by reflexivity.
  assert (CB : forall m : mem A B, check_b num m = if (0 <? num) && is_null (m_b m) then Stop ERR_INVALID_VALUE m else Next m) by reflexivity.
  assert (CN : forall m : mem A B, nothing_asked m = if is_null (m_a m) && is_null (m_n m) then Stop ERR_INVALID_VALUE m else Next m) by reflexivity.
  assert (LAST : forall (a : option (list A)) (b : option (list B)), when has_n (store_n (lenZ l)) (mkMem a b n) = Next (mkMem a b (told n (lenZ l)))) by (intros; destruct n; reflexivity).
  specialize (CA (mkMem a b n)). specialize (CB (mkMem a b n)). specialize (CN (mkMem a b n)). cbn [m_a m_b m_n] in CA, CB, CN.
  destruct (Z.ltb_spec 0 num) as [P|P]; cbn [andb] in CA, CB.
  - destruct a as [la|]; [|right; split; [auto|]; apply SS; exact CA]. cbn [is_null andb] in CA, CN.
    destruct b as [lb|]; [|right; split; [auto|]; rewrite (SN _ _ _ _ CA); apply SS; exact CB]. cbn [is_null] in CB. rewrite !(SN _ _ _ _ CA), !(SN _ _ _ _ CB), !(SN _ _ _ _ CN).
    destruct (Z.ltb_spec num (lenZ l)) as [L|L]; [left; split; [exact L|]; apply SS; unfold when, has_a; cbn [m_a is_null negb]; apply SS; reflexivity|right; split; [exact L|]].
    exact (both_filled l f g pa pb num la lb n L RA RB _ (fun a' b' => LAST a' b')).
  - assert (num = 0) as -> by lia. destruct a as [la|].
    + cbn [is_null andb] in CN. destruct b as [lb|].
      * rewrite !(SN _ _ _ _ CA). rewrite ?(SN _ _ _ _ CB), ?(SN _ _ _ _ CN). destruct (Z.ltb_spec 0 (lenZ l)) as [L|L]; [left; split; [exact L|]; apply SS; unfold when, has_a; cbn [m_a is_null negb]; apply SS; reflexivity|right; split; [exact L|]].
        exact (both_filled l f g pa pb 0 la lb n L RA RB _ (fun a' b' => LAST a' b')).
      * destruct l as [|x l].
        -- left. split; [reflexivity|]. split; [reflexivity|]. destruct n; reflexivity.
        -- right. split; [right; discriminate|]. rewrite (SN _ _ _ _ CA), (SN _ _ _ _ CB), (SN _ _ _ _ CN). apply SS. unfold when, has_a. cbn [m_a is_null negb]. apply SS. unfold deny. rewrite len_nat. cbn [length]. destruct (Z.ltb_spec 0 (Z.of_nat (S (length l)))); [reflexivity|lia].
    + destruct n as [z|]; [left|right; split; [auto|]; rewrite (SN _ _ _ _ CA), (SN _ _ _ _ CB); apply SS; exact CN].
      split; [reflexivity|]. split; [discriminate|]. rewrite (SN _ _ _ _ CA), (SN _ _ _ _ CB), (SN _ _ _ _ CN). exact (LAST None b).
Qed.
Lemma space_objectives_ok l : gives_both (space_objectives (Object l)) l 0 0.
Proof. pose proof (frame_both (space_objectives (Object l)) l fst snd 0 0 (fun _ => eq_refl)) as F. rewrite (map_ext _ (fun x => x)), map_id in F; [exact F|]. now intros []. Qed.
Lemma map_pairs_ok l : gives_both (map_pairs (Object l)) l ccs_none ccs_none.
Proof. pose proof (frame_both (map_pairs (Object l)) l fst snd ccs_none ccs_none (fun _ => eq_refl)) as F. rewrite (map_ext _ (fun x => x)), map_id in F; [exact F|]. now intros []. Qed.
