(** More refusals of the bytes of distributions. *)
From Coq Require Import ZArith List Bool Lia Arith.
From Verif Require Import Base Datum CodecModel CodecSpec CodecProofs FloatModel FloatSpec DistSearch FloatRound IntervalModel IntervalSpec ParamModel ExprModel ExprCodec DistModel DistSpec DistRoulette DistProofs DistMix DistTables TreeCodecSpec RngModel RngProofs TreeSpaceCodec TreeConfModel RestoreSpec RestoreProofs TunerCodecProofs DistCodecModel DistCodecSpec DistCodecProofs.
Import ListNotations.
Open Scope Z_scope.

(** A count of distributions whose array would be larger than any memory *)
Lemma too_many le flog mem keep id m h lh k n ln :
  in_unsigned 64 h -> leb128 h lh -> (k = 3 \/ k = 4) -> 2 ^ 61 <= n -> in_unsigned 64 n -> leb128 n ln ->
  gives (deser_dist le flog mem keep id m) (Err ERR_OUT_OF_MEMORY) ((1 :: lh) ++ k :: ln) True.
Proof.
  intros I L K N NI LN. apply takes_gives. cbn [takes]. intro L0. rewrite <- (app_nil_r (_ ++ k :: ln)). unfold deser_dist. apply rej_head.
  assert (AG : array_given mem n = false) by (unfold array_given; destruct (Z.ltb_spec (8 * n) (2 ^ 64)); [lia|reflexivity]).
  apply (fuel_rej L0 (deser_body le flog mem)). intros [|fuel] L' F; [lia|].
  apply (body_rej le flog mem L' fuel h lh k ln _ I L ltac:(lia)). intros L1 _. unfold pick, D_UNIFORM, D_NORMAL, D_ROULETTE, D_MIXTURE, D_MULTIVARIATE.
  destruct K as [-> | ->]; cbn [Z.eqb Pos.eqb]; unfold deser_mixture, deser_multi; change (?x :: ln) with ([x] ++ ln);
    (rb; [apply (decodes_dec false), deser_enum_small; lia|]); rewrite <- (app_nil_r ln);
    (rb; [apply (decodes_dec false), deser_uint_decodes; eauto using okw64|]); rewrite AG; cbn [negb]; now apply rej_now.
Qed.
