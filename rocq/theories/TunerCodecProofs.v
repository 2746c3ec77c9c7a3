(** Proofs about saving and restoring random tuners. *)
From Coq Require Import ZArith List Bool Lia Arith.
From Verif Require Import Base Datum CodecModel CodecSpec CodecProofs CmpModel CmpSpec ParamModel ParamSpec ParamCodec ContextModel ContextSpec EvalModel ExprModel ExprCodec TreeModel TreeCodecSpec TreeCodec RngModel RngProofs TreeSpaceModel TreeSpaceSpec TreeSpaceCodec TreeConfModel TreeConfSpec TreeConfProofs RestoreModel RestoreSpec RestoreProofs TunerModel TunerSpec TunerCodecModel TunerCodecSpec.
Import ListNotations.
Open Scope Z_scope.

(** ** Readers *)
Lemma gives_takes {A} de (r : res A) bs whole : gives de r bs whole -> takes de r bs whole.
Proof.
  destruct r as [a|e|]; cbn [takes gives]; [intros [D P] u L H| |tauto].
  - split; [intros _; exact D|]. intros U p q tl Q NQ LP _. now apply (P (H U) p q tl).
  - intros D L _ tl n N1 N2. now apply D.
Qed.
Lemma fuel_dec {A} u L (f : nat -> rstate -> res (A * rstate)) a bs : (forall fuel L, (L < fuel)%nat -> dec u L (f fuel) a bs) ->
  dec u L (fun s => f (S (length (r_mem s))) s) a bs.
Proof.
  intro D. split.
  - intros _ tl n N N'. cbn [r_mem]. destruct (D (S (length (bs ++ tl))) (length (bs ++ tl)) ltac:(lia)) as [D1 _]. apply D1; auto. rewrite app_length. lia.
  - intros U p q tl Q NQ LP _. cbn [r_mem]. destruct (D (S (length (p ++ tl))) (length (p ++ tl)) ltac:(lia)) as [_ D2]. apply (D2 U p q tl); auto. rewrite app_length. lia.
Qed.
Lemma fuel_rej {A} L (f : nat -> rstate -> res (A * rstate)) e bs : (forall fuel L, (L < fuel)%nat -> rej L (f fuel) e bs) ->
  rej L (fun s => f (S (length (r_mem s))) s) e bs.
Proof.
  intros D _ tl n N N'. cbn [r_mem]. apply (D (S (length (bs ++ tl))) (length (bs ++ tl)) ltac:(lia)); auto. rewrite app_length. lia.
Qed.
Lemma rej_peek {A} L t (g : Z -> rstate -> res (A * rstate)) e bs : 0 <= t < 128 ->
  rej L (g t) e (t :: bs) -> rej L (fun s => do x <- peek_enum s; g x s) e (t :: bs).
Proof.
  intros Ht H Hl tl n Hn Hn2. destruct (deser_enum_small t Ht) as [D1 _]. unfold peek_enum. cbn [app] in *. pose proof (lenZ_nonneg bs).
  assert (L1 : lenZ [t] = 1) by reflexivity.
  rewrite (D1 (bs ++ tl) n); [|split; [rewrite lenZ_cons in Hn; lia|apply Hn]|exact Hn2]. cbn [bind fst]. apply H; auto.
Qed.

(** ** Histories *)
Section Generic.
  Variables (E Sp : Type).
  Section Write.
    Variables (ser_spaces : Sp -> wstate -> res wstate) (size_spaces : Sp -> res Z).
    Variables (ser_e : eobj E -> wstate -> res wstate) (size_e : eobj E -> res Z) (storable_e : eobj E -> Prop) (wire_e : eobj E -> list Z -> Prop).
    Hypothesis EW : forall e, storable_e e -> exists bs, wire_e e bs /\ encodes (ser_e e) bs /\ size_e e = Ok (lenZ bs).
    Lemma history_written l : Forall storable_e l ->
      exists bs, wire_all wire_e l bs /\ encodes (ser_history E ser_e l) bs /\ size_history E size_e l = Ok (lenZ bs).
    Proof.
      induction 1 as [|e l S F (bs & W & EN & SZ)]; [exists []; split; [constructor|]; split; [apply encodes_nil|reflexivity]|].
      destruct (EW e S) as (b & B & BE & BS). exists (b ++ bs). split; [now constructor|]. cbn [ser_history size_history]. split; [now apply encodes_seq|].
      rewrite BS, SZ. cbn [bind]. now rewrite lenZ_app.
    Qed.
    Lemma tuner_written oty t sb : 0 <= oty < 128 -> storable_tuner storable_e t -> encodes (ser_spaces (rt_spaces t)) sb -> size_spaces (rt_spaces t) = Ok (lenZ sb) ->
      exists bs, wire_tuner oty sb wire_e t bs /\ encodes (ser_tuner E Sp ser_spaces ser_e oty t) bs /\ size_tuner E Sp size_spaces size_e oty t = Ok (lenZ bs).
    Proof.
      intros TY (I & [NC NL] & F & FO & LL & UD) SE SS. destruct (leb128_exists (rt_id t)) as [lh Lh]; [apply I|]. destruct (wire_string_exists (rt_name t)) as [nb Nb].
      pose proof (lenZ_nonneg (rt_history t)) as P1. pose proof (lenZ_nonneg (rt_optima t)) as P2.
      destruct (leb128_exists _ P1) as [hn Hn]. destruct (leb128_exists _ P2) as [on On].
      destruct (history_written _ F) as (hb & Hb & HE & HS). destruct (sizes_exist _ FO) as [ob Ob]. destruct (sizes_encode _ ob FO Ob) as [OE OS].
      destruct (wire_blob_exists (ud_bytes (rt_ud t))) as [ub Ub]. exists ((oty :: lh) ++ [0] ++ nb ++ sb ++ hn ++ on ++ hb ++ ob ++ ub).
      split; [exists lh, nb, hn, on, hb, ob, ub; repeat (split; [assumption|]); reflexivity|]. unfold ser_tuner, size_tuner. split.
      - apply encodes_seq; [now apply ser_object_internal_encodes|]. apply encodes_seq; [apply ser_enum_small; unfold TUNER_RANDOM; lia|].
        apply encodes_seq; [now apply ser_string_encodes|]. apply encodes_seq; [exact SE|].
        apply encodes_seq; [apply ser_uint_encodes; auto using okw64; unfold in_unsigned; lia|]. apply encodes_seq; [apply ser_uint_encodes; auto using okw64; unfold in_unsigned; lia|].
        apply encodes_seq; [exact HE|]. apply encodes_seq; [exact OE|]. now apply ser_user_data_encodes.
      - rewrite SS. cbn [bind]. rewrite HS. cbn [bind]. unfold size_size. f_equal.
        rewrite (size_object_internal_ok oty _ lh), (size_enum_small TUNER_RANDOM), (size_string_ok _ nb), (size_uint_ok 64 _ hn), (size_uint_ok 64 _ on), OS, (size_user_data_ok _ ub)
          by (auto using okw64; unfold in_unsigned, TUNER_RANDOM; lia).
        rewrite !lenZ_app. change (lenZ [0]) with 1. lia.
    Qed.
  End Write.
  Section Read.
    Variables (mem : Z -> bool) (deser_spaces : hmap -> rstate -> res ((Sp * hmap) * rstate)).
    Variable read_e : Sp -> nat -> hmap -> rstate -> res ((eobj E * hmap) * rstate).
    Variables (storable_e : eobj E -> Prop) (wire_e : eobj E -> list Z -> Prop) (whole_e : eobj E -> Prop).
    Variable step : Sp -> nat -> hmap -> eobj E -> res (eobj E * hmap) -> Prop.
    Hypothesis ET : forall sp i m e bs r, storable_e e -> wire_e e bs -> step sp i m e r -> takes (read_e sp i m) r bs (whole_e e).
    Hypothesis NE : forall e bs, wire_e e bs -> bs <> [].
    Lemma history_takes sp cells l hb : wire_all wire_e l hb -> Forall storable_e l -> forall i m r fuel L u, history_outcome E (step sp) i m l r ->
      Z.of_nat i + lenZ l <= cells -> (L < fuel)%nat ->
      match r with
      | Ok a => (u = true -> Forall whole_e l) -> dec u L (deser_history E Sp read_e sp fuel cells (Z.of_nat i) (Z.of_nat i + lenZ l) m) a hb
      | Err e => rej L (deser_history E Sp read_e sp fuel cells (Z.of_nat i) (Z.of_nat i + lenZ l) m) e hb
      | UB _ => False
      end.
    Proof.
      induction 1 as [|e l b bs B W IH]; intros F i m r fuel L u H C LF; (destruct fuel as [|fuel]; [lia|]); cbn [deser_history].
      - inversion H; subst. intros _. change (lenZ (@nil (eobj E))) with 0. rewrite Z.add_0_r, Z.eqb_refl. apply dec_ret.
      - inversion F as [|? ? SE F']; subst. rewrite lenZ_cons in *. pose proof (lenZ_nonneg l). pose proof (NE _ _ B) as NB.
        assert (LB : (0 < length b)%nat) by (destruct b; [congruence|cbn; lia]).
        destruct (Z.eqb_spec (Z.of_nat i) (Z.of_nat i + (1 + lenZ l))) as [X|_]; [lia|].
        assert (LT : (cells <=? Z.of_nat i) = false) by (apply Z.leb_gt; lia).
        assert (EQ : Z.of_nat i + (1 + lenZ l) = Z.of_nat (S i) + lenZ l) by lia. assert (EQ1 : Z.of_nat i + 1 = Z.of_nat (S i)) by lia.
        inversion H as [|? ? ? ? err ST|? ? ? ? e' m' err ST HO|? ? ? ? e' m' l' m'' ST HO]; subst.
        + pose proof (ET sp i m e b _ SE B ST) as T. cbn [takes] in T. rewrite Nat2Z.id. apply rej_head, T.
        + pose proof (ET sp i m e b _ SE B ST) as T. cbn [takes] in T. rewrite Nat2Z.id. eapply rej_bind; [apply (T false); discriminate|]. intro LBL. cbv beta iota. cbn [fst snd].
          rewrite LT, EQ, EQ1. rewrite <- (app_nil_r bs). apply rej_head. apply (IH F' (S i) m' (Err err) fuel (L - length b)%nat false HO); lia.
        + intro WH. pose proof (ET sp i m e b _ SE B ST) as T. cbn [takes] in T. rewrite Nat2Z.id.
          eapply dec_bind; [apply T; intro U; specialize (WH U); now inversion WH|]. intro LBL. cbv beta iota. cbn [fst snd].
          rewrite LT, EQ, EQ1. rewrite <- (app_nil_r bs). eapply dec_bind with (a := (l', m'')); [|intros _; cbv beta iota; cbn [fst snd]; apply dec_ret].
          apply (IH F' (S i) m' (Ok (l', m'')) fuel (L - length b)%nat u HO); [lia|lia|]. intro U. specialize (WH U). now inversion WH.
    Qed.
    Lemma found_stands m h o : stands m h o -> found m h = Ok o.
    Proof. unfold stands, found, hget. destruct (m h) as [[v f]|]; cbn; [|discriminate]. now intros [= ->]. Qed.
    Lemma found_unknown m h : unknown m h -> found m h = Err ERR_INVALID_HANDLE.
    Proof. unfold unknown, found, hget. destruct (m h) as [[v f]|]; cbn; [|reflexivity]. intro U. destruct v; try reflexivity. exfalso. eapply U. reflexivity. Qed.
    Lemma optima_stand m l os : Forall2 (stands m) l os -> find_optima m l = Ok os.
    Proof. induction 1 as [|h o l os S F IH]; [reflexivity|]. cbn [find_optima]. now rewrite (found_stands _ _ _ S), IH. Qed.
    Lemma optima_lost m l : Exists (unknown m) l -> find_optima m l = Err ERR_INVALID_HANDLE.
    Proof.
      induction 1 as [h l U|h l EX IH]; cbn [find_optima]; [now rewrite found_unknown|].
      rewrite IH. destruct (known_or m h) as [[o K]|U]; [now rewrite (found_stands m h o K)|now rewrite found_unknown].
    Qed.
    Lemma wire_nonempty l hb : wire_all wire_e l hb -> (length l <= length hb)%nat.
    Proof. induction 1 as [|e l b bs B W IH]; [auto|]. pose proof (NE _ _ B). rewrite app_length. destruct b; [congruence|]. cbn. lia. Qed.
    Section One.
      Variables (t : rtuner E Sp) (sb : list Z) (whole_s : Prop).
      Hypothesis ST : storable_tuner storable_e t.
      Let nh := lenZ (rt_history t).
      Let no := lenZ (rt_optima t).
      Definition whole_t : Prop := whole_s /\ Forall whole_e (rt_history t) /\ ud_bytes (rt_ud t) = [].
      Definition data_bytes ty nb hn on hb ob : list Z := [ty] ++ nb ++ sb ++ hn ++ on ++ hb ++ ob.
      Section Bytes.
        (** [ty]: the type of the tuner *)
        Variables (ty : Z) (nb hn on hb ob : list Z).
        Hypothesis TYP : 0 <= ty < 128.
        Hypothesis Nb : wire_string (rt_name t) nb.
        Hypothesis Hn : leb128 (lenZ (rt_history t)) hn.
        Hypothesis On : leb128 (lenZ (rt_optima t)) on.
        Hypothesis Hb : wire_all wire_e (rt_history t) hb.
        Hypothesis Ob : wire_sizes (rt_optima t) ob.
        Lemma enum0 u L : dec u L deser_enum ty [ty].
        Proof. apply decodes_dec, deser_enum_small. exact TYP. Qed.
        Lemma name_dec u L : dec u L deser_string (rt_name t) nb.
        Proof. destruct ST as (_ & [NC NL] & _). apply decodes_dec. now apply deser_string_decodes. Qed.
        Lemma counts : in_unsigned 64 nh /\ in_unsigned 64 no /\ wrap 64 (nh + no) = nh + no.
        Proof. destruct ST as (_ & _ & _ & _ & LL & _). pose proof (lenZ_nonneg (rt_history t)). pose proof (lenZ_nonneg (rt_optima t)). unfold in_unsigned, nh, no. rewrite wrap_small; lia. Qed.
        Lemma nh_dec u L : dec u L deser_size nh hn.
        Proof. apply decodes_dec, deser_uint_decodes; [exact okw64|apply counts|exact Hn]. Qed.
        Lemma no_dec u L : dec u L deser_size no on.
        Proof. apply decodes_dec, deser_uint_decodes; [exact okw64|apply counts|exact On]. Qed.
        Lemma spaces_fail L e : takes (deser_spaces (fun _ => None)) (Err e) sb whole_s ->
          rej L (deser_tuner_data E Sp mem deser_spaces read_e) e (data_bytes ty nb hn on hb ob).
        Proof. intro T. unfold deser_tuner_data, data_bytes. rb; [apply (enum0 false)|]. rb; [apply (name_dec false)|]. apply rej_head, T. Qed.
        Section Spaces.
          Variables (sp : Sp) (m : hmap).
          Hypothesis T : takes (deser_spaces (fun _ => None)) (Ok (sp, m)) sb whole_s.
          Ltac upto := rb; [apply (enum0 false)|]; rb; [apply (name_dec false)|]; rb; [apply (T false); discriminate|]; rb; [apply (nh_dec false)|]; rb; [apply (no_dec false)|]; cbn [fst snd];
            rewrite (proj2 (proj2 counts)).
          Lemma data_memory L : refused_memory mem (8 * (nh + no)) -> rej L (deser_tuner_data E Sp mem deser_spaces read_e) ERR_OUT_OF_MEMORY (data_bytes ty nb hn on hb ob).
          Proof.
            intros [N F]. unfold deser_tuner_data, data_bytes. upto. destruct (Z.eqb_spec (nh + no) 0) as [X|_]; [lia|]. rewrite F. cbn [negb]. now apply rej_now.
          Qed.
          Lemma data_history L e : granted mem (8 * (nh + no)) -> history_outcome E (step sp) 0 m (rt_history t) (Err e) -> rej L (deser_tuner_data E Sp mem deser_spaces read_e) e (data_bytes ty nb hn on hb ob).
          Proof.
            intros G H. destruct counts as ([N0 _] & [M0 _] & _). unfold deser_tuner_data, data_bytes. upto. destruct (Z.eqb_spec (nh + no) 0) as [X|NZ].
            - unfold nh in *. destruct (rt_history t); [inversion H|]. rewrite lenZ_cons in *. pose proof (lenZ_nonneg l). lia.
            - rewrite G by lia. cbn [negb]. apply rej_head, (fuel_rej _ (fun fuel => deser_history E Sp read_e sp fuel (nh + no) 0 nh m)). intros fuel L' LF.
              apply (history_takes sp (nh + no) (rt_history t) hb Hb (proj1 (proj2 (proj2 ST))) 0%nat m (Err e) fuel L' false H); fold nh; lia.
          Qed.
          Section Done.
            Variables (l : list (eobj E)) (m' : hmap).
            Hypothesis G : granted mem (8 * (nh + no)).
            Hypothesis H : history_outcome E (step sp) 0 m (rt_history t) (Ok (l, m')).
            Lemma hist_dec u L : (u = true -> Forall whole_e (rt_history t)) -> nh + no <> 0 ->
              dec u L (fun s => deser_history E Sp read_e sp (S (length (r_mem s))) (nh + no) 0 nh m s) (l, m') hb.
            Proof.
              intros U NZ. apply (fuel_dec u L (fun fuel => deser_history E Sp read_e sp fuel (nh + no) 0 nh m)). intros fuel L' LF. destruct counts as ([N0 _] & [M0 _] & _).
              refine (history_takes sp (nh + no) (rt_history t) hb Hb (proj1 (proj2 (proj2 ST))) 0%nat m (Ok (l, m')) fuel L' u H _ LF U). fold nh; lia.
            Qed.
            Lemma opt_dec u L : dec u L (fun s => deser_positions (S (length (r_mem s))) (8 * (nh + no)) nh (nh + no) s) (rt_optima t) ob.
            Proof.
              apply (fuel_dec u L (fun fuel => deser_positions fuel (8 * (nh + no)) nh (nh + no))). intros fuel L' LF. destruct counts as ([N0 _] & [M0 _] & _).
              apply positions_dec; auto; [apply ST|]. fold no. lia.
            Qed.
            Lemma none_stored : nh + no = 0 -> rt_history t = [] /\ rt_optima t = [] /\ hb = [] /\ ob = [] /\ nh = 0 /\ l = [] /\ m' = m.
            Proof.
              intro X. destruct counts as ([N0 _] & [M0 _] & _). assert (A : nh = 0) by lia. assert (B : no = 0) by lia.
              unfold nh in A. unfold no in B. apply lenZ_0 in A. apply lenZ_0 in B. pose proof H as H'. pose proof Hb as Hb'. pose proof Ob as Ob'. rewrite A in H', Hb'. rewrite B in Ob'.
              inversion H'; subst. inversion Hb'; subst. inversion Ob'; subst. repeat split; auto. unfold nh. now rewrite A.
            Qed.
            Lemma data_lost L : Exists (unknown m') (rt_optima t) -> rej L (deser_tuner_data E Sp mem deser_spaces read_e) ERR_INVALID_HANDLE (data_bytes ty nb hn on hb ob).
            Proof.
              intro X. unfold deser_tuner_data, data_bytes. upto. destruct (Z.eqb_spec (nh + no) 0) as [Z0|NZ].
              - apply none_stored in Z0. destruct Z0 as (_ & A & _). rewrite A in X. inversion X.
              - rewrite G by lia. cbn [negb]. rb; [apply (hist_dec false); [discriminate|exact NZ]|]. cbn [fst snd]. rewrite <- (app_nil_r ob). rb; [apply (opt_dec false)|].
                rewrite optima_lost by exact X. now apply rej_now.
            Qed.
            Lemma data_dec os u L : Forall2 (stands m') (rt_optima t) os -> (u = true -> whole_t) ->
              dec u L (deser_tuner_data E Sp mem deser_spaces read_e) (rt_name t, sp, l, os) (data_bytes ty nb hn on hb ob).
            Proof.
              intros FO U. unfold deser_tuner_data, data_bytes. db; [apply enum0|]. db; [apply name_dec|]. db; [apply T; intro V; apply (U V)|]. db; [apply nh_dec|]. db; [apply no_dec|]. cbn [fst snd].
              rewrite (proj2 (proj2 counts)). destruct (Z.eqb_spec (nh + no) 0) as [Z0|NZ].
              - apply none_stored in Z0. destruct Z0 as (A & B & -> & -> & N0 & -> & ->). rewrite N0, Z.eqb_refl. rewrite B in FO. inversion FO; subst. apply dec_ret.
              - rewrite G by lia. cbn [negb]. db; [apply hist_dec; [intro V; apply (U V)|exact NZ]|]. cbn [fst snd]. rewrite <- (app_nil_r ob). db; [apply opt_dec|].
                rewrite (optima_stand _ _ _ FO). cbn [bind]. apply dec_ret.
            Qed.
          End Done.
        End Spaces.
      End Bytes.
      Variables (oty unsupported : Z) (outer : option hmap) (id : Z).
      Hypothesis TY : 0 <= oty < 128.
      Lemma tuner_takes bs rs r : wire_tuner oty sb wire_e t bs -> takes (deser_spaces (fun _ => None)) rs sb whole_s ->
        match rs with Err e => r = Err e | Ok (sp, m) => tuner_outcome E Sp mem (step sp) outer id t sp m r | UB _ => False end ->
        takes (deser_tuner E Sp mem deser_spaces read_e oty unsupported outer id) r bs whole_t.
      Proof.
        intros (lh & nb & hn & on & hb & ob & ub & Lh & Nb & Hn & On & Hb & Ob & Ub & ->) T O. destruct ST as (I & _ & _ & _ & _ & UD).
        replace ((oty :: lh) ++ [0] ++ nb ++ sb ++ hn ++ on ++ hb ++ ob ++ ub) with ((oty :: lh) ++ data_bytes 0 nb hn on hb ob ++ ub) by (unfold data_bytes; rewrite <- !app_assoc; reflexivity).
        assert (RJ : forall e, (forall L, rej L (deser_tuner_data E Sp mem deser_spaces read_e) e (data_bytes 0 nb hn on hb ob)) ->
                     forall L, rej L (deser_tuner E Sp mem deser_spaces read_e oty unsupported outer id) e ((oty :: lh) ++ data_bytes 0 nb hn on hb ob ++ ub)).
        { intros e R L. unfold deser_tuner. rb; [apply (decodes_dec false), (deser_object_internal_decodes oty (rt_id t) lh TY I Lh)|]. cbn [fst snd]. rewrite Z.eqb_refl. cbn [negb refute bind].
          unfold data_bytes. cbn [app]. apply rej_peek; [lia|]. cbn [refute bind negb Z.eqb TUNER_USER_DEFINED TUNER_RANDOM].
          change (0 :: ?x) with ([0] ++ x). replace ([0] ++ (nb ++ sb ++ hn ++ on ++ hb ++ ob) ++ ub) with (data_bytes 0 nb hn on hb ob ++ ub) by reflexivity. apply rej_head, R. }
        assert (GO : forall u L d hm', (u = true -> whole_t) -> dec u (L - length (oty :: lh)) (deser_tuner_data E Sp mem deser_spaces read_e) d (data_bytes 0 nb hn on hb ob) ->
                     match outer with None => Ok None | Some m => do m <- handle_check_add m (rt_id t) id; Ok (Some m) end = Ok hm' ->
                     dec u L (deser_tuner E Sp mem deser_spaces read_e oty unsupported outer id) (let '(nm, sp, h, opt) := d in (mkRT id nm sp h opt (restored_ud (rt_ud t)), hm')) ((oty :: lh) ++ data_bytes 0 nb hn on hb ob ++ ub)).
        { intros u L [[[nm sp] h] opt] hm' U D HM. unfold deser_tuner. db; [apply decodes_dec, (deser_object_internal_decodes oty (rt_id t) lh TY I Lh)|]. cbn [fst snd]. rewrite Z.eqb_refl. cbn [negb refute bind].
          unfold data_bytes. cbn [app]. apply dec_peek; [lia|]. cbn [refute bind negb Z.eqb TUNER_USER_DEFINED TUNER_RANDOM].
          replace (0 :: (nb ++ sb ++ hn ++ on ++ hb ++ ob) ++ ub) with (data_bytes 0 nb hn on hb ob ++ ub) by reflexivity. db; [exact D|].
          rewrite HM. cbn [bind]. rewrite <- (app_nil_r ub). db; [apply user_data_dec; [exact UD|exact Ub|intro V; apply (U V)]|]. rewrite restored_ud_eq. apply dec_ret. }
        destruct rs as [[sp m]|e|]; [|subst r; cbn [takes]; apply RJ; intro L; now apply spaces_fail|contradiction].
        destruct O as [RM|e G H|l m' G H X|l m' os k G H FO OU K|l m' os G H FO K]; cbn [takes].
        - apply RJ. intro L. eapply data_memory; eauto; lia.
        - apply RJ. intro L. eapply data_history; eauto; lia.
        - apply RJ. intro L. eapply data_lost; eauto; lia.
        - intro L. unfold deser_tuner. rb; [apply (decodes_dec false), (deser_object_internal_decodes oty (rt_id t) lh TY I Lh)|]. cbn [fst snd]. rewrite Z.eqb_refl. cbn [negb refute bind].
          unfold data_bytes. cbn [app]. apply rej_peek; [lia|]. cbn [refute bind negb Z.eqb TUNER_USER_DEFINED TUNER_RANDOM].
          replace (0 :: (nb ++ sb ++ hn ++ on ++ hb ++ ob) ++ ub) with (data_bytes 0 nb hn on hb ob ++ ub) by reflexivity.
          rb; [apply (data_dec 0 nb hn on hb ob ltac:(lia) Nb Hn On Hb Ob sp m T l m' G H os false _ FO); discriminate|].
          rewrite OU. unfold handle_check_add. destruct (k (rt_id t)); [|congruence]. cbn [refute bind]. now apply rej_now.
        - intros u L U. apply (GO u L (rt_name t, sp, l, os)); [exact U|eapply data_dec; eauto; lia|].
          unfold noted, recording. destruct outer as [k|]; [|reflexivity]. cbn [option_map]. unfold handle_check_add. rewrite (K k eq_refl). cbn [refute bind]. reflexivity.
      Qed.
    End One.
  End Read.
End Generic.

(** ** Outcomes *)
Section Outcomes.
  Variables (E Sp : Type) (mem : Z -> bool) (step : nat -> hmap -> eobj E -> res (eobj E * hmap) -> Prop) (storable_e : eobj E -> Prop).
  Section Some.
    Hypothesis SS : forall i m e, storable_e e -> exists r, step i m e r /\ forall u, r <> UB u.
    Lemma history_some l : Forall storable_e l -> forall i m, exists r, history_outcome E step i m l r /\ forall u, r <> UB u.
    Proof.
      induction 1 as [|e l S F IH]; intros i m; [eexists; split; [constructor|discriminate]|]. destruct (SS i m e S) as ([[e' m']|err|u] & ST & NU).
      - destruct (IH (Datatypes.S i) m') as ([[l' m'']|err|u] & H & NU'); [eexists; split; [eapply ho_next; eauto|discriminate]|eexists; split; [eapply ho_later; eauto|discriminate]|now destruct (NU' u)].
      - eexists; split; [eapply ho_fails; eauto|discriminate].
      - now destruct (NU u).
    Qed.
    Lemma optima_some m l : Exists (unknown m) l \/ exists os, Forall2 (stands m) l os.
    Proof.
      induction l as [|h l [X|[os F]]]; [right; exists []; constructor|left; now constructor|].
      destruct (known_or m h) as [[o K]|U]; [right; exists (o :: os); now constructor|left; now constructor].
    Qed.
    Lemma tuner_some outer id t sp m : storable_tuner storable_e t -> exists r, tuner_outcome E Sp mem step outer id t sp m r.
    Proof.
      intros (_ & _ & F & _). destruct (granted_or mem (8 * (lenZ (rt_history t) + lenZ (rt_optima t)))) as [G|R]; [|eexists; now apply tu_memory].
      destruct (history_some _ F 0%nat m) as ([[l m']|err|u] & H & NU); [|eexists; eapply tu_history; eauto|now destruct (NU u)].
      destruct (optima_some m' (rt_optima t)) as [X|[os FO]]; [eexists; eapply tu_lost; eauto|].
      destruct outer as [k|]; [|eexists; eapply tu_had; eauto; discriminate]. destruct (k (rt_id t)) eqn:KE.
      - eexists; eapply tu_again; eauto. congruence.
      - eexists; eapply tu_had; eauto. now intros k' [= <-].
    Qed.
  End Some.
  Section Again.
    (** the evaluation is recorded *)
    Hypothesis REC : forall i m e e' m', step i m e (Ok (e', m')) -> m (eo_id e) = None /\ m' = recording m (eo_id e) (eo_id e').
    (** and may be so in a larger map *)
    Hypothesis EXT : forall i m m1 m2 e e', step i m e (Ok (e', m1)) -> (forall k d, m k = Some d -> m2 k = Some d) ->
      (m2 (eo_id e) = None -> step i m2 e (Ok (e', recording m2 (eo_id e) (eo_id e')))) /\ (m2 (eo_id e) <> None -> step i m2 e (Err ERR_DUPLICATE_HANDLE)).
    Variable m : hmap.
    Lemma all_recorded H : forall H' i0 m2, length H' = length H -> (forall i e e', nth_error H i = Some e -> nth_error H' i = Some e' -> exists m', step (i0 + i) m e (Ok (e', m'))) ->
      NoDup (map eo_id H) -> (forall k d, m k = Some d -> m2 k = Some d) -> (forall e, In e H -> m2 (eo_id e) = None) ->
      exists m3, history_outcome E step i0 m2 H (Ok (H', m3)) /\ (forall k, ~ In k (map eo_id H) -> m3 k = m2 k) /\
        (forall i e e', nth_error H i = Some e -> nth_error H' i = Some e' -> m3 (eo_id e) = Some (ccs_object (eo_id e'))).
    Proof.
      induction H as [|e H IH]; intros [|e' H'] i0 m2 LL ST ND EX FR; try discriminate.
      - exists m2. split; [constructor|]. split; [auto|]. intros [|i] ? ? X; discriminate.
      - cbn in ND. inversion ND as [|? ? NI ND']; subst. destruct (ST 0%nat e e' eq_refl eq_refl) as [m' S0]. rewrite Nat.add_0_r in S0.
        destruct (EXT _ _ _ m2 _ _ S0 EX) as [S1 _]. specialize (S1 (FR e (or_introl eq_refl))). set (m4 := recording m2 (eo_id e) (eo_id e')) in *.
        destruct (IH H' (S i0) m4) as (m3 & HO & OT & AT).
        + now injection LL.
        + intros i a a' A1 A2. destruct (ST (S i) a a' A1 A2) as [mm S2]. exists mm. now rewrite Nat.add_succ_r in S2.
        + exact ND'.
        + intros k d K. unfold m4, recording. destruct (Z.eqb_spec k (eo_id e)) as [->|_]; [|auto]. specialize (FR e (or_introl eq_refl)).
          apply EX in K. rewrite K in FR. discriminate.
        + intros a A. unfold m4, recording. destruct (Z.eqb_spec (eo_id a) (eo_id e)) as [X|_]; [|apply FR; now right]. exfalso. apply NI. rewrite <- X. now apply in_map.
        + exists m3. split; [eapply ho_next; eauto|]. split.
          * intros k K. rewrite OT by (intro; apply K; now right). unfold m4, recording. destruct (Z.eqb_spec k (eo_id e)) as [->|_]; [exfalso; apply K; now left|reflexivity].
          * intros [|i] a a' A1 A2; [|eapply AT; eauto]. injection A1 as <-. injection A2 as <-. rewrite OT by exact NI. unfold m4, recording. now rewrite Z.eqb_refl.
    Qed.
    Lemma tuner_restored outer id (t : rtuner E Sp) sp H' : granted mem (8 * (lenZ (rt_history t) + lenZ (rt_optima t))) ->
      history_restored step m (rt_history t) H' -> handles_apart m (rt_history t) -> incl (rt_optima t) (map eo_id (rt_history t)) ->
      (forall k, outer = Some k -> k (rt_id t) = None) ->
      exists os, tuner_outcome E Sp mem step outer id t sp m (Ok (mkRT id (rt_name t) sp H' os (restored_ud (rt_ud t)), noted outer (rt_id t) id)) /\
        same_optima (rt_history t) H' (rt_optima t) os.
    Proof.
      intros G [LL ST] [ND FR] IN OU. destruct (all_recorded _ H' 0%nat m LL ST ND (fun _ _ X => X) FR) as (m3 & HO & _ & AT).
      assert (PT : forall h, In h (rt_optima t) -> exists i e e', nth_error (rt_history t) i = Some e /\ nth_error H' i = Some e' /\ h = eo_id e /\ m3 h = Some (ccs_object (eo_id e'))).
      { intros h I. apply IN in I. apply in_map_iff in I. destruct I as (e & <- & I). apply In_nth_error in I. destruct I as [i NE].
        destruct (nth_error H' i) as [e'|] eqn:NE'; [|apply nth_error_None in NE'; assert (X : nth_error (rt_history t) i <> None) by congruence; apply nth_error_Some in X; lia].
        exists i, e, e'. repeat split; auto. eapply AT; eauto. }
      assert (OS : forall l, incl l (rt_optima t) -> exists os, Forall2 (fun h o => exists i e e', nth_error (rt_history t) i = Some e /\ nth_error H' i = Some e' /\ h = eo_id e /\ o = eo_id e' /\ m3 h = Some (ccs_object o)) l os).
      { induction l as [|h l IH]; intro IL; [exists []; constructor|]. destruct IH as [os F]; [intros x X; apply IL; now right|].
        destruct (PT h (IL h (or_introl eq_refl))) as (i & e & e' & A & B & C & D). exists (eo_id e' :: os). constructor; [|exact F]. exists i, e, e'. auto. }
      destruct (OS (rt_optima t) (incl_refl _)) as [os F]. exists os. split.
      - eapply tu_had; eauto. clear -F. induction F as [|h o l os (i & e & e' & _ & _ & _ & _ & M) F IH]; constructor; auto. unfold stands. now rewrite M.
      - clear -F. split; [induction F; cbn; congruence|]. induction F as [|h o l os (i & e & e' & A & B & C & D & M) F IH]; intros [|j] h1 h2 X Y; try discriminate.
        + injection X as <-. injection Y as <-. exists i, e, e'. auto.
        + eapply IH; eauto.
    Qed.
    (** an evaluation that comes again *)
    Lemma history_apart l : forall i m2 x, history_outcome E step i m2 l (Ok x) -> handles_apart m2 l.
    Proof.
      induction l as [|a l IH]; intros i m2 x HO; [split; [constructor|intros e []]|]. inversion HO as [| | |? ? ? ? e' m4 l4 m5 S0 HO']; subst. destruct (REC _ _ _ _ _ S0) as [N ->].
      destruct (IH _ _ _ HO') as [ND FR]. split.
      - cbn. constructor; [|exact ND]. intro I. apply in_map_iff in I. destruct I as (e & EQ & I). specialize (FR e I). unfold recording in FR. rewrite EQ, Z.eqb_refl in FR. discriminate.
      - intros e [<-|I]; [exact N|]. specialize (FR e I). unfold recording in FR. destruct (eo_id e =? eo_id a); [discriminate|exact FR].
    Qed.
    Lemma tuner_apart outer id (t : rtuner E Sp) sp x : tuner_outcome E Sp mem step outer id t sp m (Ok x) -> handles_apart m (rt_history t).
    Proof. intro O. inversion O; subst. eapply history_apart; eauto. Qed.
    (** precisely, when nothing else is wrong *)
    Lemma again_fails H : forall H' i0 m2, length H' = length H -> (forall i e e', nth_error H i = Some e -> nth_error H' i = Some e' -> exists m', step (i0 + i) m e (Ok (e', m'))) ->
      (forall k d, m k = Some d -> m2 k = Some d) -> ~ (NoDup (map eo_id H) /\ forall e, In e H -> m2 (eo_id e) = None) ->
      history_outcome E step i0 m2 H (Err ERR_DUPLICATE_HANDLE).
    Proof.
      induction H as [|e H IH]; intros [|e' H'] i0 m2 LL ST EX NA; try discriminate.
      - exfalso. apply NA. split; [constructor|intros e []].
      - destruct (ST 0%nat e e' eq_refl eq_refl) as [m' S0]. rewrite Nat.add_0_r in S0. destruct (EXT _ _ _ m2 _ _ S0 EX) as [S1 S2].
        destruct (m2 (eo_id e)) as [d|] eqn:ME; [apply ho_fails, S2; discriminate|]. specialize (S1 eq_refl). set (m4 := recording m2 (eo_id e) (eo_id e')) in *.
        eapply ho_later; [exact S1|]. apply (IH H').
        + now injection LL.
        + intros i a a' A1 A2. destruct (ST (S i) a a' A1 A2) as [mm S3]. exists mm. now rewrite Nat.add_succ_r in S3.
        + intros k d K. unfold m4, recording. destruct (Z.eqb_spec k (eo_id e)) as [->|_]; [|auto]. apply EX in K. rewrite K in ME. discriminate.
        + intros [ND FR]. apply NA. split.
          * cbn. constructor; [|exact ND]. intro I. apply in_map_iff in I. destruct I as (a & EQ & I). specialize (FR a I). unfold m4, recording in FR. rewrite EQ, Z.eqb_refl in FR. discriminate.
          * intros a [<-|I]; [exact ME|]. specialize (FR a I). unfold m4, recording in FR. destruct (eo_id a =? eo_id e); [discriminate|exact FR].
    Qed.
    Lemma tuner_told_twice outer id (t : rtuner E Sp) sp H' : granted mem (8 * (lenZ (rt_history t) + lenZ (rt_optima t))) ->
      history_restored step m (rt_history t) H' -> ~ handles_apart m (rt_history t) -> tuner_outcome E Sp mem step outer id t sp m (Err ERR_DUPLICATE_HANDLE).
    Proof. intros G [LL ST] NA. apply tu_history; [exact G|]. apply (again_fails _ H' 0%nat m); auto. Qed.
  End Again.
End Outcomes.

(** ** The three kinds *)
Section Kinds.
  Variables (mem : Z -> bool) (jen : list Z -> Z) (heap : Z -> param) (space_at : Z -> option (Z * context)).
  Section Larger.
    Variables (m m2 : hmap).
    Hypothesis EX : forall k d, m k = Some d -> m2 k = Some d.
    Lemma larger_val k o : option_map d_val (m k) = Some (VObject o) -> option_map d_val (m2 k) = Some (VObject o).
    Proof. destruct (m k) as [d|] eqn:MK; [|discriminate]. now rewrite (EX _ _ MK). Qed.
    Lemma larger_becomes old sty space A : becomes heap jen space_at m old sty space A -> becomes heap jen space_at m2 old sty space A.
    Proof. intros [B C]. split; [now apply larger_val|exact C]. Qed.
    Lemma larger_bobj sty id b b' m1 : bobj_outcome mem heap jen space_at m sty false id b (Ok (b', m1)) -> bobj_outcome mem heap jen space_at m2 sty false id b (Ok (b', m2)).
    Proof.
      intro O. remember m as n eqn:EN in O. inversion O as [| | | | |space A vs G B S K]; subst b' m1. rewrite EN in B. eapply (bo_had _ _ _ _ m2 sty false id b); eauto using larger_becomes. discriminate.
    Qed.
    Lemma larger_conf cid b b' : conf_outcome mem heap jen space_at m cid b (Ok b') -> conf_outcome mem heap jen space_at m2 cid b (Ok b').
    Proof. intro O. inversion O as [|? B]; subst. constructor. eapply larger_bobj; eauto. Qed.
    Lemma larger_pair cid fid p p' : pair_outcome mem heap jen space_at m cid fid p (Ok p') -> pair_outcome mem heap jen space_at m2 cid fid p (Ok p').
    Proof. intro O. inversion O as [| |c f C F]; subst. constructor; [now apply larger_conf|eapply larger_bobj; eauto]. Qed.
    Lemma larger_tconf is_space cid t t' : tconf_outcome mem m is_space cid t (Ok t') -> tconf_outcome mem m2 is_space cid t (Ok t').
    Proof. intro O. inversion O as [| | |space G MS IS]; subst. constructor; auto. now apply larger_val. Qed.
    Lemma larger_eval E (about about2 : E -> res E -> Prop) id e e' m1 : (forall a a', about a (Ok a') -> about2 a (Ok a')) ->
      eval_outcome mem heap jen space_at m about true id e (Ok (e', m1)) ->
      (m2 (eo_id e) = None -> eval_outcome mem heap jen space_at m2 about2 true id e (Ok (e', recording m2 (eo_id e) (eo_id e')))) /\
      (m2 (eo_id e) <> None -> eval_outcome mem heap jen space_at m2 about2 true id e (Err ERR_DUPLICATE_HANDLE)).
    Proof.
      intros AB O. inversion O as [| | | | | |a space A vs G AO B S K]; subst. cbn [eo_id]. split; intro N.
      - eapply (eo_had _ _ _ _ m2 about2 true); eauto using larger_becomes.
      - eapply eo_again; eauto using larger_becomes.
    Qed.
  End Larger.
  Lemma eval_recorded E (about : E -> res E -> Prop) m id e e' m' : eval_outcome mem heap jen space_at m about true id e (Ok (e', m')) ->
    m (eo_id e) = None /\ m' = recording m (eo_id e) (eo_id e').
  Proof. intro O. inversion O as [| | | | | |a space A vs G AO B S K]; subst. split; [now apply K|reflexivity]. Qed.
End Kinds.
Lemma wire_eval_nonempty {E} ty about (e : eobj E) bs : wire_eval ty about e bs -> bs <> [].
Proof. intros (lh & db & ab & rb & ub & _ & _ & _ & _ & _ & ->). discriminate. Qed.

Section Tuners.
  Variables (mem : Z -> bool) (jen : list Z -> Z) (le : bool) (Sp : Type) (lives : Sp -> live) (eid cid fid : nat -> Z).
  Variables (deser_spaces : hmap -> rstate -> res ((Sp * hmap) * rstate)) (ser_spaces : Sp -> wstate -> res wstate) (size_spaces : Sp -> res Z).
  Definition ev_step (sp : Sp) := evaluation_step mem jen (lives sp) eid cid.
  Definition fe_step (sp : Sp) := features_step mem jen (lives sp) eid cid fid.
  Definition tr_step (sp : Sp) := tree_step mem jen (lives sp) eid cid.
  Lemma tuners_written sb :
    (forall t, storable_tuner (storable_eval storable_bobj) t -> encodes (ser_spaces (rt_spaces t)) sb -> size_spaces (rt_spaces t) = Ok (lenZ sb) ->
       exists bs, wire_tuner 8 sb (wire_eval 7 (wire_bobj 5)) t bs /\ encodes (ser_config_tuner le Sp ser_spaces t) bs /\ size_config_tuner Sp size_spaces t = Ok (lenZ bs)) /\
    (forall t, storable_tuner (storable_eval storable_pair) t -> encodes (ser_spaces (rt_spaces t)) sb -> size_spaces (rt_spaces t) = Ok (lenZ sb) ->
       exists bs, wire_tuner 12 sb (wire_eval 11 wire_pair) t bs /\ encodes (ser_features_tuner le Sp ser_spaces t) bs /\ size_features_tuner Sp size_spaces t = Ok (lenZ bs)) /\
    (forall t, storable_tuner (storable_eval storable_conf) t -> encodes (ser_spaces (rt_spaces t)) sb -> size_spaces (rt_spaces t) = Ok (lenZ sb) ->
       exists bs, wire_tuner 19 sb (wire_eval 18 wire_conf) t bs /\ encodes (ser_tree_tuner le Sp ser_spaces t) bs /\ size_tree_tuner Sp size_spaces t = Ok (lenZ bs)).
  Proof.
    clear mem jen lives eid cid fid deser_spaces. destruct (writings le) as (_ & _ & W1 & W2 & W3).
    split; [|split]; intros t ST SE SS; (eapply tuner_written; [|unfold OBJ_TUNER, OBJ_FEATURES_TUNER, OBJ_TREE_TUNER; lia|exact ST|exact SE|exact SS]); auto.
  Qed.
  Variables (sb : list Z) (whole : Prop) (outer : option hmap) (id : Z) (bs : list Z) (rs : res (Sp * hmap)).
  Hypothesis GS : gives (deser_spaces (fun _ => None)) rs sb whole.
  Lemma tuner_had t r : storable_tuner (storable_eval storable_bobj) t -> wire_tuner 8 sb (wire_eval 7 (wire_bobj 5)) t bs -> saved_outcome bobj Sp mem ev_step outer id t rs r ->
    gives (deser_config_tuner mem jen le Sp lives eid cid deser_spaces outer id) r bs (whole /\ plain_tuner plain_bobj t).
  Proof.
    clear ser_spaces size_spaces fid. intros ST W O. eapply takes_gives, (tuner_takes bobj Sp mem deser_spaces _ _ _ (plain_eval plain_bobj) ev_step); [| |exact ST| |exact W|apply gives_takes; exact GS|destruct O; auto].
    - intros sp i m e b r' SE WE OE. eapply eval_takes; eauto; [unfold OBJ_EVALUATION; lia|]. intros ab r2 Wa Oa. eapply conf_takes; eauto. apply SE.
    - intros e b. apply wire_eval_nonempty.
    - unfold OBJ_TUNER; lia.
  Qed.
  Lemma features_tuner_had t r : storable_tuner (storable_eval storable_pair) t -> wire_tuner 12 sb (wire_eval 11 wire_pair) t bs -> saved_outcome (bobj * bobj) Sp mem fe_step outer id t rs r ->
    gives (deser_features_tuner mem jen le Sp lives eid cid fid deser_spaces outer id) r bs (whole /\ plain_tuner plain_pair t).
  Proof.
    clear ser_spaces size_spaces. intros ST W O. eapply takes_gives, (tuner_takes (bobj * bobj) Sp mem deser_spaces _ _ _ (plain_eval plain_pair) fe_step); [| |exact ST| |exact W|apply gives_takes; exact GS|destruct O; auto].
    - intros sp i m e b r' SE WE OE. eapply eval_takes; eauto; [unfold OBJ_FEATURES_EVALUATION; lia|]. intros ab r2 Wa Oa. eapply pair_takes; eauto. apply SE.
    - intros e b. apply wire_eval_nonempty.
    - unfold OBJ_FEATURES_TUNER; lia.
  Qed.
  Lemma tree_tuner_had t r : storable_tuner (storable_eval storable_conf) t -> wire_tuner 19 sb (wire_eval 18 wire_conf) t bs -> saved_outcome tconf Sp mem tr_step outer id t rs r ->
    gives (deser_tree_tuner mem jen le Sp lives eid cid deser_spaces outer id) r bs (whole /\ plain_tuner plain_conf t).
  Proof.
    clear ser_spaces size_spaces fid. intros ST W O. eapply takes_gives, (tuner_takes tconf Sp mem deser_spaces _ _ _ (plain_eval plain_conf) tr_step); [| |exact ST| |exact W|apply gives_takes; exact GS|destruct O; auto].
    - intros sp i m e b r' SE WE OE. eapply eval_takes; [unfold OBJ_TREE_EVALUATION; lia|exact SE|exact WE| |exact OE]. intros ab r2 Wa Oa. eapply tconf_takes; [exact (lv_heap (lives sp))|exact jen|exact (lv_at (lives sp))|apply SE|exact Wa|exact Oa].
    - intros e b. apply wire_eval_nonempty.
    - unfold OBJ_TREE_TUNER; lia.
  Qed.
End Tuners.
Section Same.
  Variables (mem : Z -> bool) (jen : list Z -> Z) (v : live) (eid cid fid : nat -> Z).
  Lemma ev_rec i m e e' m' : evaluation_step mem jen v eid cid i m e (Ok (e', m')) -> m (eo_id e) = None /\ m' = recording m (eo_id e) (eo_id e').
  Proof. apply eval_recorded. Qed.
  Lemma fe_rec i m e e' m' : features_step mem jen v eid cid fid i m e (Ok (e', m')) -> m (eo_id e) = None /\ m' = recording m (eo_id e) (eo_id e').
  Proof. apply eval_recorded. Qed.
  Lemma tr_rec i m e e' m' : tree_step mem jen v eid cid i m e (Ok (e', m')) -> m (eo_id e) = None /\ m' = recording m (eo_id e) (eo_id e').
  Proof. apply eval_recorded. Qed.
  Lemma ev_ext i m m1 m2 e e' : evaluation_step mem jen v eid cid i m e (Ok (e', m1)) -> (forall k d, m k = Some d -> m2 k = Some d) ->
    (m2 (eo_id e) = None -> evaluation_step mem jen v eid cid i m2 e (Ok (e', recording m2 (eo_id e) (eo_id e')))) /\ (m2 (eo_id e) <> None -> evaluation_step mem jen v eid cid i m2 e (Err ERR_DUPLICATE_HANDLE)).
  Proof. intros S X. eapply larger_eval; [exact X| |exact S]. intros a a'. now apply larger_conf. Qed.
  Lemma fe_ext i m m1 m2 e e' : features_step mem jen v eid cid fid i m e (Ok (e', m1)) -> (forall k d, m k = Some d -> m2 k = Some d) ->
    (m2 (eo_id e) = None -> features_step mem jen v eid cid fid i m2 e (Ok (e', recording m2 (eo_id e) (eo_id e')))) /\ (m2 (eo_id e) <> None -> features_step mem jen v eid cid fid i m2 e (Err ERR_DUPLICATE_HANDLE)).
  Proof. intros S X. eapply larger_eval; [exact X| |exact S]. intros a a'. now apply larger_pair. Qed.
  Lemma tr_ext i m m1 m2 e e' : tree_step mem jen v eid cid i m e (Ok (e', m1)) -> (forall k d, m k = Some d -> m2 k = Some d) ->
    (m2 (eo_id e) = None -> tree_step mem jen v eid cid i m2 e (Ok (e', recording m2 (eo_id e) (eo_id e')))) /\ (m2 (eo_id e) <> None -> tree_step mem jen v eid cid i m2 e (Err ERR_DUPLICATE_HANDLE)).
  Proof. intros S X. eapply larger_eval; [exact X| |exact S]. intros a a'. now apply larger_tconf. Qed.
  Lemma restores_gen E Sp (step : nat -> hmap -> eobj E -> res (eobj E * hmap) -> Prop) :
    (forall i m e e' m', step i m e (Ok (e', m')) -> m (eo_id e) = None /\ m' = recording m (eo_id e) (eo_id e')) ->
    (forall i m m1 m2 e e', step i m e (Ok (e', m1)) -> (forall k d, m k = Some d -> m2 k = Some d) ->
      (m2 (eo_id e) = None -> step i m2 e (Ok (e', recording m2 (eo_id e) (eo_id e')))) /\ (m2 (eo_id e) <> None -> step i m2 e (Err ERR_DUPLICATE_HANDLE))) ->
    restores mem Sp step.
  Proof.
    intros REC EXT m outer id t sp. split; [intros x O; eapply tuner_apart; eauto|]. intros H' G HR. split.
    - intro NA. eapply tuner_told_twice; eauto.
    - intros HA IN OU. eapply tuner_restored; eauto.
    Unshelve. all: exact (fun _ => True).
  Qed.
  Lemma all_restore Sp : restores mem Sp (evaluation_step mem jen v eid cid) /\ restores mem Sp (features_step mem jen v eid cid fid) /\ restores mem Sp (tree_step mem jen v eid cid).
  Proof. split; [|split]; apply restores_gen; eauto using ev_rec, fe_rec, tr_rec, ev_ext, fe_ext, tr_ext. Qed.
  (** each restored evaluation *)
  Lemma restored_evaluation E (about : hmap -> E -> res E -> Prop) m i e e' m' : eval_outcome mem (lv_heap v) jen (lv_at v) m (about m) true i e (Ok (e', m')) ->
    eo_id e' = i /\ eo_result e' = eo_result e /\ eo_ud e' = restored_ud (eo_ud e) /\ about m (eo_about e) (Ok (eo_about e')) /\
    exists A, becomes (lv_heap v) jen (lv_at v) m (eo_ctx e) OT_OBJECTIVE_SPACE (eo_ctx e') A /\ settles (lv_heap v) A (eo_vals e) (Ok (eo_vals e')).
  Proof. clear. intro O. inversion O as [| | | | | |a space A vs G AO B S K]; subst. cbn. repeat split; auto. exists A. auto. Qed.
  Lemma steps_keep i m :
    (forall e e' m', evaluation_step mem jen v eid cid i m e (Ok (e', m')) -> eo_id e' = eid i /\ eo_result e' = eo_result e /\ eo_ud e' = restored_ud (eo_ud e) /\
      conf_outcome mem (lv_heap v) jen (lv_at v) m (cid i) (eo_about e) (Ok (eo_about e')) /\
      exists A, becomes (lv_heap v) jen (lv_at v) m (eo_ctx e) OT_OBJECTIVE_SPACE (eo_ctx e') A /\ settles (lv_heap v) A (eo_vals e) (Ok (eo_vals e'))) /\
    (forall e e' m', features_step mem jen v eid cid fid i m e (Ok (e', m')) -> eo_id e' = eid i /\ eo_result e' = eo_result e /\ eo_ud e' = restored_ud (eo_ud e) /\
      pair_outcome mem (lv_heap v) jen (lv_at v) m (cid i) (fid i) (eo_about e) (Ok (eo_about e')) /\
      exists A, becomes (lv_heap v) jen (lv_at v) m (eo_ctx e) OT_OBJECTIVE_SPACE (eo_ctx e') A /\ settles (lv_heap v) A (eo_vals e) (Ok (eo_vals e'))) /\
    (forall e e' m', tree_step mem jen v eid cid i m e (Ok (e', m')) -> eo_id e' = eid i /\ eo_result e' = eo_result e /\ eo_ud e' = restored_ud (eo_ud e) /\
      tconf_outcome mem m (lv_trees v) (cid i) (eo_about e) (Ok (eo_about e')) /\
      exists A, becomes (lv_heap v) jen (lv_at v) m (eo_ctx e) OT_OBJECTIVE_SPACE (eo_ctx e') A /\ settles (lv_heap v) A (eo_vals e) (Ok (eo_vals e'))).
  Proof.
    split; [|split]; intros e e' m' S.
    - exact (restored_evaluation _ (fun m => conf_outcome mem (lv_heap v) jen (lv_at v) m (cid i)) m (eid i) e e' m' S).
    - exact (restored_evaluation _ (fun m => pair_outcome mem (lv_heap v) jen (lv_at v) m (cid i) (fid i)) m (eid i) e e' m' S).
    - exact (restored_evaluation _ (fun m => tconf_outcome mem m (lv_trees v) (cid i)) m (eid i) e e' m' S).
  Qed.
  Hypothesis SP : spaces (lv_heap v) jen (lv_at v).
  Lemma ev_no_ub E (about : E -> res E -> Prop) heap space_at m keep id e u : (forall a u, ~ about a (UB u)) -> ~ eval_outcome mem heap jen space_at m about keep id e (UB u).
  Proof. clear. intros NA O. inversion O. Qed.
  Lemma tuners_some Sp outer id sp m :
    (forall t, storable_tuner (storable_eval storable_bobj) t -> exists r, tuner_outcome bobj Sp mem (evaluation_step mem jen v eid cid) outer id t sp m r) /\
    (forall t, storable_tuner (storable_eval storable_pair) t -> exists r, tuner_outcome (bobj * bobj) Sp mem (features_step mem jen v eid cid fid) outer id t sp m r) /\
    (forall t, storable_tuner (storable_eval storable_conf) t -> exists r, tuner_outcome tconf Sp mem (tree_step mem jen v eid cid) outer id t sp m r).
  Proof.
    split; [|split]; intros t ST; (eapply tuner_some; [|exact ST]); intros i m0 e SE.
    - destruct (outcomes_exist mem (lv_heap v) jen (lv_at v) m0 true (eid i) SP) as (_ & X & _). destruct (X (cid i) e SE) as [r O]. exists r. split; [exact O|]. intros u ->. inversion O.
    - destruct (outcomes_exist mem (lv_heap v) jen (lv_at v) m0 true (eid i) SP) as (_ & _ & X & _). destruct (X (cid i) (fid i) e SE) as [r O]. exists r. split; [exact O|]. intros u ->. inversion O.
    - destruct (outcomes_exist mem (lv_heap v) jen (lv_at v) m0 true (eid i) SP) as (_ & _ & _ & X). destruct (X (lv_trees v) (cid i) e SE) as [r O]. exists r. split; [exact O|]. intros u ->. inversion O.
  Qed.
End Same.

(** ** Tuners that were told evaluations *)
Section Told.
  Variables (heap : Z -> param) (jen : list Z -> Z) (feat : bool).
  Lemma sweep_incl w e old : forall d acc d' o, sweep heap jen feat w e old d acc = Ok (d', o) -> forall x, In x o -> In x old \/ In x acc.
  Proof.
    induction old as [|a old IH]; intros d acc d' o H x X; cbn [sweep] in H; [injection H as <- <-; auto|].
    destruct d.
    - destruct (IH _ _ _ _ H x X) as [I|I]; [left; now right|]. apply in_app_iff in I. destruct I as [I|[<-|[]]]; auto. left. now left.
    - destruct (compare heap jen w feat e a) as [c|c|u]; [|destruct (IH _ _ _ _ H x X); auto; left; now right|discriminate].
      destruct (_ || _); [|destruct (c =? BETTER)]; destruct (IH _ _ _ _ H x X) as [I|I]; try (left; now right); auto; apply in_app_iff in I; destruct I as [I|[<-|[]]]; auto; left; now left.
  Qed.
  Lemma tell_one_incl w t e t' : tell_one heap jen feat w t e = Ok t' -> incl (t_optima t) (t_history t) -> incl (t_optima t') (t_history t').
  Proof.
    unfold tell_one. destruct (_ =? _); [|intros [= <-]; auto]. destruct (sweep _ _ _ _ _ _ _ _) as [[d o]|c|u] eqn:SW; try discriminate. cbn [bind]. intros [= <-] I x. cbn [t_optima t_history].
    rewrite in_app_iff. assert (XO : In x o -> In x (t_history t)) by (intro X; destruct (sweep_incl _ _ _ _ _ _ _ SW x X) as [Y|[]]; auto).
    destruct d; [auto|]. rewrite in_app_iff. tauto.
  Qed.
  Lemma tell_incl w es : forall t t', tell heap jen feat w t es = Ok t' -> incl (t_optima t) (t_history t) -> incl (t_optima t') (t_history t').
  Proof.
    induction es as [|e es IH]; intros t t' H I; cbn [tell] in H; [now injection H as <-|]. destruct (tell_one heap jen feat w t e) as [t1|c|u] eqn:T1; try discriminate. cbn [bind] in H.
    eapply IH; eauto. eapply tell_one_incl; eauto.
  Qed.
  Lemma tells_incl calls : forall t t', tells heap jen feat t calls = Ok t' -> incl (t_optima t) (t_history t) -> incl (t_optima t') (t_history t').
  Proof.
    induction calls as [|[w es] calls IH]; intros t t' H I; cbn [tells] in H; [now injection H as <-|]. destruct (tell heap jen feat w t es) as [t1|c|u] eqn:T1; try discriminate. cbn [bind] in H.
    eapply IH; eauto. eapply tell_incl; eauto.
  Qed.
  Lemma optima_told fs calls t : tells heap jen feat (create_tuner fs) calls = Ok t -> incl (t_optima t) (t_history t).
  Proof. intro H. eapply tells_incl; eauto. intros x []. Qed.
End Told.

(** ** Other objects *)
Lemma other_type E Sp mem deser_spaces read_e oty unsupported outer id ty h lh : 0 <= ty < 128 -> in_unsigned 64 h -> leb128 h lh -> ty <> oty ->
  gives (deser_tuner E Sp mem deser_spaces read_e oty unsupported outer id) (Err ERR_INVALID_TYPE) (ty :: lh) True.
Proof.
  intros T I L N. apply takes_gives. cbn [takes]. intro L0. rewrite <- (app_nil_r (ty :: lh)). unfold deser_tuner. rb; [apply (decodes_dec false), (deser_object_internal_decodes ty h lh T I L)|].
  cbn [fst]. destruct (Z.eqb_spec ty oty); [contradiction|]. cbn [negb refute bind]. now apply rej_now.
Qed.
Lemma other_tuner E Sp mem deser_spaces read_e oty unsupported outer id h lh k : 0 <= oty < 128 -> in_unsigned 64 h -> leb128 h lh -> 0 < k < 128 ->
  gives (deser_tuner E Sp mem deser_spaces read_e oty unsupported outer id) (Err (if k =? 1 then ERR_INVALID_VALUE else unsupported)) ((oty :: lh) ++ [k]) True.
Proof.
  intros T I L K. apply takes_gives. cbn [takes]. intro L0. unfold deser_tuner. rb; [apply (decodes_dec false), (deser_object_internal_decodes oty h lh T I L)|].
  cbn [fst]. rewrite Z.eqb_refl. cbn [negb refute bind]. apply rej_peek; [lia|]. unfold TUNER_USER_DEFINED, TUNER_RANDOM. destruct (Z.eqb_spec k 1); cbn [refute bind]; [now apply rej_now|].
  destruct (Z.eqb_spec k 0); [lia|]. cbn [negb refute bind]. now apply rej_now.
Qed.
