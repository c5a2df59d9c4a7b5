(* C30 with periodic boundaries. *)
From Coq Require Import Reals List Bool Arith ZArith Lia Lra.
From Verif Require Import Model_Forces Spec_Forces Model_Integrators Spec_Integrators Spec_WrapReverse Properties_Integrators.
Import ListNotations.
Local Open Scope R_scope.

Lemma same_sym dims w x y : same_place dims w x y -> same_place dims w y x.
Proof. intros [L H]. split; [now symmetry|]. intros k. destruct (H k) as [z E]. exists (- z)%Z. rewrite E, opp_IZR. ring. Qed.
Lemma same_trans dims w x y z : same_place dims w x y -> same_place dims w y z -> same_place dims w x z.
Proof.
  intros [L H] [L' H']. split; [congruence|]. intros k. destruct (H k) as [a E], (H' k) as [b E']. exists (a + b)%Z. rewrite E', E, plus_IZR. ring.
Qed.
Lemma same_refl dims w x : same_place dims w x x.
Proof. split; [reflexivity|]. intros k. exists 0%Z. ring. Qed.
Definition alike dims w (a b : sys) : Prop := same_place dims w (sx a) (sx b) /\ sv a = sv b /\ sf a = sf b.

Section wrap.
Context (s : simd) (dims n : nat) (im w : arr) (dt : R) (g : arr -> arr).
Context (Hs : s = NoSimd \/ s = SSE3) (HD : (0 < dims)%nat) (HI : length im = n) (HG : forall x, length x = (n * dims)%nat -> length (g x) = (n * dims)%nat).
Context (INV : forall x y, length x = (n * dims)%nat -> same_place dims w x y -> g x = g y).

Lemma step_alike a b : shaped n dims a -> shaped n dims b -> alike dims w a b ->
  exists a' b', vv_step s dims n im dt (fun x _ => Some (g x)) a = Some a' /\ vv_step s dims n im dt (fun x _ => Some (g x)) b = Some b' /\
    shaped n dims a' /\ shaped n dims b' /\ alike dims w a' b'.
Proof.
  intros (A1 & A2 & A3) (B1 & B2 & B3) (E1 & E2 & E3). unfold vv_step. rewrite <- E2, <- E3.
  destruct (C31_velocities s dims dt (n * dims) im (sf a) (sv a) Hs HD ltac:(lia) ltac:(lia) ltac:(rewrite HI; lia)) as (v1 & V & L1 & _). rewrite V.
  destruct (C31_positions s dt (n * dims) v1 (sx a) ltac:(lia) ltac:(lia)) as (x1 & X1 & LX1 & NX1). rewrite X1.
  destruct (C31_positions s dt (n * dims) v1 (sx b) ltac:(lia) ltac:(lia)) as (x2 & X2 & LX2 & NX2). rewrite X2.
  assert (SP : same_place dims w x1 x2).
  { split; [lia|]. intros k. destruct (proj2 E1 k) as [z Z]. exists z. rewrite NX1, NX2, Z. destruct (k <? n * dims)%nat; ring. }
  assert (L2 : length x1 = (n * dims)%nat) by lia. rewrite <- (INV x1 x2 L2 SP). specialize (HG x1 L2).
  destruct (C31_velocities s dims dt (n * dims) im (g x1) v1 Hs HD ltac:(lia) ltac:(lia) ltac:(rewrite HI; lia)) as (v2 & V2 & LV2 & _). rewrite V2.
  cbn [option_map]. do 2 eexists. split; [reflexivity|]. split; [reflexivity|]. repeat split; cbn [sx sv sf]; try lia; apply SP.
Qed.
Lemma steps_alike m : forall a b b', wrapped_steps s dims n im w dt g m b b' -> shaped n dims a -> shaped n dims b -> alike dims w a b ->
  exists a', steps s dims n im dt g m a = Some a' /\ shaped n dims a' /\ shaped n dims b' /\ alike dims w a' b'.
Proof.
  intros a b b' H. revert a. induction H as [x b SP|m x b b1 b2 SP E H IH]; intros a A B L.
  - exists a. split; [reflexivity|]. split; [exact A|]. destruct A as (A1 & A2 & A3), B as (B1 & B2 & B3), L as (L1 & L2 & L3).
    split; [repeat split; cbn [sx sv sf]; try lia; destruct SP; lia|]. split; [|split; assumption]. eapply same_trans; eassumption.
  - assert (B' : shaped n dims (mkSys x (sv b) (sf b))).
    { destruct B as (B1 & B2 & B3). repeat split; cbn [sx sv sf]; try lia; destruct SP; lia. }
    assert (L' : alike dims w a (mkSys x (sv b) (sf b))).
    { destruct L as (L1 & L2 & L3). split; [|split; assumption]. eapply same_trans; eassumption. }
    destruct (step_alike a _ A B' L') as (a1 & b1' & EA & EB & SA & SB & L1). rewrite E in EB. injection EB as <-.
    destruct (IH a1 SA SB L1) as (a2 & E2 & R2). exists a2. split; [|exact R2]. cbn [steps]. now rewrite EA.
Qed.
End wrap.

(* Reversibility when positions are wrapped at any times, in any way, during the steps, for forces that are the same for the same places. *)
Theorem C30_reversible_wrapped_partial : forall s dims n im widths dt (g : arr -> arr) m st0 st st' st'', s = NoSimd \/ s = SSE3 -> (0 < dims)%nat -> length im = n ->
  (forall x, length x = (n * dims)%nat -> length (g x) = (n * dims)%nat) ->
  (forall x y, length x = (n * dims)%nat -> same_place dims widths x y -> g x = g y) -> shaped n dims st0 ->
  wrapped_steps s dims n im widths dt g 1 st0 st -> wrapped_steps s dims n im widths dt g m st st' ->
  wrapped_steps s dims n im widths dt g m (reversed st') st'' ->
  same_place dims widths (sx st) (sx st'') /\ sv st'' = map Ropp (sv st).
Proof.
  intros s dims n im w dt g m st0 st st' st'' Hs HD HI HG INV S0 H1 H2 H3.
  assert (RF : forall a, alike dims w a a) by (intros a; split; [apply same_refl|auto]).
  assert (RV : forall a, shaped n dims a -> shaped n dims (reversed a)). { intros a (A & B & C). repeat split; cbn; rewrite ?map_length; assumption. }
  destruct (steps_alike s dims n im w dt g Hs HD HI HG INV 1 st0 st0 st H1 S0 S0 (RF _)) as (u & U & SU & SS & LU).
  destruct (steps_alike s dims n im w dt g Hs HD HI HG INV m u st st' H2 SU SS LU) as (u' & U' & SU' & SS' & LU').
  assert (LR : alike dims w (reversed u') (reversed st')). { destruct LU' as (A & B & C). split; [exact A|]. cbn. split; [now rewrite B|exact C]. }
  destruct (steps_alike s dims n im w dt g Hs HD HI HG INV m (reversed u') (reversed st') st'' H3 (RV _ SU') (RV _ SS') LR) as (u'' & U'' & _ & _ & LU'').
  destruct (C30_reversible_partial s dims n im dt g m st0 Hs HD HI HG S0) as (t & t' & t'' & T1 & T2 & T3 & T4 & T5).
  rewrite U in T1. injection T1 as <-. rewrite U' in T2. injection T2 as <-. rewrite U'' in T3. injection T3 as <-.
  destruct LU as (A1 & A2 & A3), LU'' as (B1 & B2 & B3). split; [|congruence]. eapply same_trans; [apply same_sym; exact A1|]. rewrite <- T4. exact B1.
Qed.
Print Assumptions C30_reversible_wrapped_partial.

(* A particle in a periodic force: the hypotheses hold, and it is wrapped on its way. *)
Example C30_wrapped_case : let g := map sin in let w := [2 * PI] in
  (forall x y, length x = 1%nat -> same_place 1 w x y -> g x = g y) /\
  exists st st', wrapped_steps NoSimd 1 1 [1] w 1 g 1 (mkSys [0] [2 * PI] [0]) st /\ sx st = [0] /\ sv st = [2 * PI] /\
    wrapped_steps NoSimd 1 1 [1] w 1 g 1 (reversed st) st' /\ sx st' = [- (2 * PI)] /\ sv st' = [- (2 * PI)] /\ same_place 1 w (sx st) (sx st').
Proof.
  cbv zeta. split.
  - intros x y L [LY H]. destruct x as [|a [|]]; try discriminate. destruct y as [|b [|]]; try discriminate. destruct (H 0%nat) as [z E]. cbn in E. cbn. f_equal. subst b.
    symmetry. destruct z as [|p|p].
    + f_equal. ring.
    + replace (a + IZR (Z.pos p) * (2 * PI)) with (a + 2 * INR (Pos.to_nat p) * PI); [apply sin_period|]. rewrite INR_IZR_INZ, positive_nat_Z. ring.
    + rewrite <- (sin_period (a + IZR (Z.neg p) * (2 * PI)) (Pos.to_nat p)). f_equal. rewrite INR_IZR_INZ, positive_nat_Z. change (Z.neg p) with (- Z.pos p)%Z. rewrite opp_IZR. ring.
  - exists (mkSys [0] [2 * PI] [0]), (mkSys [-(2 * PI)] [- (2 * PI)] [0]).
    assert (sin (0 + 2 * PI) = 0) as S1 by (rewrite Rplus_0_l; apply sin_2PI).
    assert (sin (0 - 2 * PI) = 0) as S2. { replace (0 - 2 * PI) with (- (2 * PI)) by ring. rewrite sin_neg, sin_2PI. ring. }
    split; [|split; [reflexivity|split; [reflexivity|split; [|split; [reflexivity|split; [reflexivity|]]]]]].
    + eapply wrapped_step; [apply same_refl|cbn; reflexivity|]. cbn.
      match goal with |- wrapped_steps _ _ _ _ _ _ _ 0 ?s ?t => assert (E : t = mkSys [0] (sv s) (sf s)) end.
      { cbn. f_equal; f_equal; [|].
        - replace (0 + 1 * (2 * PI + 1 / 2 * 1 * 1 * 0)) with (0 + 2 * PI) by field. rewrite S1. field.
        - replace (0 + 1 * (2 * PI + 1 / 2 * 1 * 1 * 0)) with (0 + 2 * PI) by field. now rewrite S1. }
      rewrite E. apply wrapped_end. cbn. split; [reflexivity|]. intros [|k]; cbn; [exists (-1)%Z; field|]. exists 0%Z. destruct k; ring.
    + eapply wrapped_step; [apply same_refl|cbn; reflexivity|]. cbn.
      match goal with |- wrapped_steps _ _ _ _ _ _ _ 0 ?s ?t => assert (E : t = mkSys [- (2 * PI)] (sv s) (sf s)) end.
      { cbn. f_equal; f_equal.
        - replace (0 + 1 * (- (2 * PI) + 1 / 2 * 1 * 1 * 0)) with (0 - 2 * PI) by field. rewrite S2. field.
        - replace (0 + 1 * (- (2 * PI) + 1 / 2 * 1 * 1 * 0)) with (0 - 2 * PI) by field. now rewrite S2. }
      rewrite E. apply wrapped_end. cbn. split; [reflexivity|]. intros [|k]; cbn; [exists 0%Z; field|]. exists 0%Z. destruct k; ring.
    + cbn. split; [reflexivity|]. intros [|k]; cbn; [exists (-1)%Z; ring|]. exists 0%Z. destruct k; ring.
Qed.
Print Assumptions C30_wrapped_case.
