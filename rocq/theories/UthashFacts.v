(** Tables whose keys are distinct, and the lists of pairs of the model of maps. *)
From Coq Require Import ZArith List Bool Lia.
From Verif Require Import Base Datum CodecModel CmpModel MapModel UthashModel UthashSpec
  UthashLists UthashSteps.
Import ListNotations.
Open Scope Z_scope.

Section Facts.
  Variable K : Type.
  Variable hash : K -> Z -> Z.
  Variable same : K -> K -> Z -> bool.
  Arguments e_at {K}. Arguments e_key {K}. Arguments e_len {K}.
  Arguments v_list {K}. Arguments v_live {K}.

  Lemma matchb_spec : forall k len (e : entry K),
    (hash (e_key e) (e_len e) =? hash k len) && (e_len e =? len) && same (e_key e) k len = true
    <-> matching K hash same k len e.
  Proof.
    intros k len e. unfold matching. rewrite !andb_true_iff, !Z.eqb_eq. tauto.
  Qed.

  Lemma find_unique : forall v k len r v',
    does K hash same v (Find K k len) (Found r) v' ->
    (forall e1 e2, In e1 (v_list v) -> In e2 (v_list v) ->
       matching K hash same k len e1 -> matching K hash same k len e2 -> e1 = e2) ->
    r = match find (fun e => (hash (e_key e) (e_len e) =? hash k len) && (e_len e =? len)
                             && same (e_key e) k len) (v_list v) with
        | Some e => e_at e
        | None => 0
        end.
  Proof.
    intros v k len r v' D U.
    destruct (find _ (v_list v)) as [e|] eqn:E.
    - apply find_some in E. destruct E as (Ie & M). apply matchb_spec in M.
      inversion D; subst.
      + f_equal. apply U; assumption.
      + exfalso. match goal with H : forall e, In e _ -> ~ _ |- _ => apply (H e); assumption end.
    - inversion D; subst; [|reflexivity].
      exfalso. match goal with H : In e _ |- _ => apply (find_none _ _ E) in H end.
      assert (X := proj2 (matchb_spec k len e) ltac:(assumption)). cbv beta in *. congruence.
  Qed.

  Lemma run_from_nothing : forall N fuel k p,
    0 <= N < 2 ^ 32 -> (Z.to_nat N < fuel)%nat -> legal K hash same N (empty K) p ->
    exists l, run K hash same fuel (nothing K k) p = Ok l /\ told K hash same (empty K) p l.
  Proof.
    intros N fuel k p NB FU LG. apply (run_ok K hash same N fuel p (empty K) (nothing K k)); auto.
    apply empty_inv. lia.
  Qed.
End Facts.

(** struct _ccs_map_datum_s: the key is in the element, the value beside it *)
Definition dhash (jen : list Z -> Z) (d : datum) (len : Z) : Z := hash_datum jen d.
Definition dsame (a b : datum) (len : Z) : bool := datum_cmp_internal a b =? 0.
Definition pair_of (val : Z -> datum) (e : entry datum) : datum * datum :=
  (e_key _ e, val (e_at _ e)).

Lemma map_table : forall jen val v k len r v',
  does datum (dhash jen) dsame v (Find datum k len) (Found r) v' ->
  NoDup (map (e_at datum) (v_list datum v)) -> ~ In 0 (map (e_at datum) (v_list datum v)) ->
  (forall e, In e (v_list datum v) -> e_len datum e = len) ->
  (forall e1 e2, In e1 (v_list datum v) -> In e2 (v_list datum v) ->
     matching datum (dhash jen) dsame k len e1 ->
     matching datum (dhash jen) dsame k len e2 -> e1 = e2) ->
  MapModel.hash_find jen (map (pair_of val) (v_list datum v)) k
  = (if r =? 0 then None
     else option_map (pair_of val) (find (fun e => e_at _ e =? r) (v_list datum v)))
  /\ MapModel.hash_del jen (map (pair_of val) (v_list datum v)) k
     = map (pair_of val) (without datum r (v_list datum v)).
Proof.
  intros jen val v k len r v' D ND NZ LEN U.
  assert (KM : forall e, In e (v_list datum v) ->
    (key_matches jen k (pair_of val e) = true <-> matching datum (dhash jen) dsame k len e)).
  { intros e Ie. unfold key_matches, matching, dhash, dsame, pair_of. cbn [fst].
    rewrite andb_true_iff, !Z.eqb_eq. specialize (LEN e Ie). tauto. }
  assert (NW : forall l a, ~ In a (map (e_at datum) l) -> without datum a l = l).
  { induction l as [|x l IH]; intros a NI; [reflexivity|]. cbn in *.
    destruct (Z.eqb_spec (e_at datum x) a) as [E|_]; [exfalso; apply NI; now left|].
    cbn. f_equal. apply IH. tauto. }
  inversion D as [| | | |k0 len0 e Ie M|k0 len0 NM| | | | |]; subst.
  - assert (RZ : (e_at datum e =? 0) = false).
    { apply Z.eqb_neq. intros X. apply NZ. rewrite <- X. apply in_map. exact Ie. }
    rewrite RZ.
    apply in_split in Ie. destruct Ie as (l1 & l2 & EL). rewrite EL in *.
    assert (KF : forall x, In x l1 -> key_matches jen k (pair_of val x) = false).
    { intros x X. destruct (key_matches jen k (pair_of val x)) eqn:E; [|reflexivity]. exfalso.
      assert (Ix : In x (l1 ++ e :: l2)) by (apply in_or_app; now left).
      apply KM in E; [|exact Ix].
      assert (x = e) by (apply U; auto; apply in_or_app; right; now left). subst x.
      rewrite map_app in ND. cbn [map] in ND. apply NoDup_remove_2 in ND. apply ND.
      apply in_or_app. left. apply in_map. exact X. }
    assert (KT : key_matches jen k (pair_of val e) = true).
    { apply KM; [apply in_or_app; right; now left|exact M]. }
    rewrite without_mid by exact ND. split.
    + unfold MapModel.hash_find. rewrite map_app. cbn [map].
      assert (F : find (fun e0 => e_at datum e0 =? e_at datum e) (l1 ++ e :: l2) = Some e).
      { assert (NI : ~ In (e_at datum e) (map (e_at datum) l1)).
        { rewrite map_app in ND. cbn [map] in ND. apply NoDup_remove_2 in ND.
          intros X. apply ND. apply in_or_app. now left. }
        clear - NI. induction l1 as [|x l1 IH]; cbn.
        - now rewrite Z.eqb_refl.
        - destruct (Z.eqb_spec (e_at datum x) (e_at datum e)) as [E|_].
          + exfalso. apply NI. now left.
          + apply IH. intros X. apply NI. now right. }
      rewrite F. cbn [option_map]. clear - KF KT.
      induction l1 as [|x l1 IH]; cbn.
      * now rewrite KT.
      * rewrite KF by now left. apply IH. intros y Y. apply KF. now right.
    + rewrite !map_app. cbn [map]. clear - KF KT.
      induction l1 as [|x l1 IH]; cbn.
      * now rewrite KT.
      * rewrite KF by now left. f_equal. apply IH. intros y Y. apply KF. now right.
  - cbn [Z.eqb]. rewrite NW by exact NZ.
    assert (KF : forall x, In x (v_list datum v') -> key_matches jen k (pair_of val x) = false).
    { intros x X. destruct (key_matches jen k (pair_of val x)) eqn:E; [|reflexivity]. exfalso.
      apply KM in E; [|exact X]. apply (NM x X E). }
    clear - KF. unfold MapModel.hash_find. induction (v_list datum v') as [|x l IH]; [split; reflexivity|].
    cbn. rewrite KF by now left. destruct IH as (A & B).
    { intros y Y. apply KF. now right. }
    split; [exact A|]. now rewrite B.
Qed.
