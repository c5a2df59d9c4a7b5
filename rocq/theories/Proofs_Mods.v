From Coq Require Import QArith Qround Qminmax Qabs List Bool ZArith Lia Lqa Setoid.
From Verif Require Import Lib Model_Mods Spec_Mods.
Import ListNotations.
Local Open Scope Q_scope.

Definition quiet (m : modif) : Prop := match m with LD _ | QD _ => False | _ => True end.
Lemma pre_quiet ms p : Forall quiet ms -> pre_all ms p = p.
Proof. intros H. revert p. induction H as [|m ms Hm _ IH]; intros p; [reflexivity|]. cbn [pre_all]. rewrite IH. destruct m; cbn in *; tauto || reflexivity. Qed.
Lemma post_quiet dims dt m p : quiet m -> quiet (fst (post_forces dims dt m p)).
Proof. destruct m; cbn; auto. destruct moving; cbn; auto. Qed.
Lemma post_all_app dims dt ms m p : exists ms' p1, (Forall quiet ms -> Forall quiet ms') /\ p_x p1 = p_x p /\ p_im p1 = p_im p /\
  post_all dims dt (ms ++ [m]) p = (ms' ++ [fst (post_forces dims dt m p1)], snd (post_forces dims dt m p1)).
Proof.
  revert p. induction ms as [|a ms IH]; intros p.
  - exists [], p. split; [auto|]. split; [reflexivity|]. split; [reflexivity|]. cbn. destruct (post_forces dims dt m p); reflexivity.
  - cbn [app post_all]. destruct (post_forces dims dt a p) as [a' p1] eqn:E. destruct (IH p1) as (ms' & p2 & H1 & H2 & H3 & H4). exists (a' :: ms'), p2. split.
    + intros F. inversion F; subst. constructor; [|auto]. replace a' with (fst (post_forces dims dt a p)) by now rewrite E. now apply post_quiet.
    + assert (X : p_x p1 = p_x p /\ p_im p1 = p_im p).
      { replace p1 with (snd (post_forces dims dt a p)) by now rewrite E. destruct a; cbn; try (split; reflexivity).
        - destruct moving; split; reflexivity.
        - destruct (_ || _); split; reflexivity.
        - destruct (_ || _); split; reflexivity. }
      destruct X as [X1 X2]. split; [congruence|]. split; [congruence|]. now rewrite H4.
Qed.

(* one step of a driven particle *)
Lemma drive_step dims ms m dt g p : Forall quiet ms -> quiet m -> exists ms' p1, Forall quiet ms' /\ p_im p1 = p_im p /\
  p_x p1 = (fun c => p_x p c + (p_v p c + (1#2) * dt * p_im p * p_f p c) * dt) /\
  step dims dt g (ms ++ [m], p) = (ms' ++ [fst (post_forces dims dt m p1)], half_kick dt (snd (post_forces dims dt m p1))).
Proof.
  intros H Hm. unfold step. rewrite pre_quiet by (apply Forall_app; auto).
  destruct (post_all_app dims dt ms m (set_f g (drift dt (half_kick dt p)))) as (ms' & p1 & A & B & C & D). exists ms', p1. split; [auto|]. split; [rewrite C; reflexivity|]. split; [rewrite B; reflexivity|].
  now rewrite D.
Qed.
(* the driven particle has velocity u and no force *)
Definition driven (u : vec) (p : pt) : Prop := forall c, p_v p c == u c /\ p_f p c == 0.
Lemma driven_kick u dt p : driven u p -> driven u (half_kick dt p).
Proof. intros H c. destruct (H c) as [A B]. cbn. rewrite B. split; [rewrite A; ring|reflexivity]. Qed.

Lemma run_app dims a b s : run dims (a ++ b) s = run dims b (run dims a s).
Proof. unfold run. apply fold_left_app. Qed.

Section CVs.
Variables (dims : nat) (u : vec).
Lemma cv_step ms dt g p : Forall quiet ms -> exists ms' p', Forall quiet ms' /\ step dims dt g (ms ++ [CV u], p) = (ms' ++ [CV u], p') /\ driven u p' /\
  forall c, p_x p' c == p_x p c + (p_v p c + (1#2) * dt * p_im p * p_f p c) * dt.
Proof.
  intros H. destruct (drive_step dims ms (CV u) dt g p H I) as (ms' & p1 & A & B & C & D). exists ms'. eexists. split; [exact A|]. split; [exact D|]. cbn [post_forces fst snd].
  split; [apply driven_kick; intros c; cbn; split; reflexivity|]. intros c. cbn. rewrite C. reflexivity.
Qed.
Lemma cv_run steps : forall ms p, Forall quiet ms -> driven u p -> exists ms' p', Forall quiet ms' /\ run dims steps (ms ++ [CV u], p) = (ms' ++ [CV u], p') /\ driven u p' /\
  forall c, p_x p' c == p_x p c + u c * elapsed steps.
Proof.
  induction steps as [|[dt g] steps IH]; intros ms p H D.
  - exists ms, p. cbn. split; [exact H|]. split; [reflexivity|]. split; [exact D|]. intros c. ring.
  - cbn [run fold_left fst snd]. destruct (cv_step ms dt g p H) as (ms1 & p1 & A & B & C & E). change (fold_left (fun s a => step dims (fst a) (snd a) s) steps) with (run dims steps). rewrite B.
    destruct (IH ms1 p1 A C) as (ms2 & p2 & A2 & B2 & C2 & E2). exists ms2, p2. split; [exact A2|]. split; [exact B2|]. split; [exact C2|]. intros c. rewrite E2, E. cbn [elapsed fold_right fst].
    destruct (D c) as [D1 D2]. fold (elapsed steps). rewrite D1, D2. ring.
Qed.
End CVs.

Lemma sumsq_len dims u : sumsq dims u == length2 dims u.
Proof.
  unfold sumsq. induction dims as [|n IH]; [reflexivity|]. rewrite seq_S, fold_left_app. cbn [fold_left length2 Nat.add]. now rewrite IH.
Qed.
Lemma length2_ext dims u v : (forall c, u c == v c) -> length2 dims u == length2 dims v.
Proof. intros H. induction dims as [|n IH]; [reflexivity|]. cbn [length2]. now rewrite IH, H. Qed.
Lemma length2_scale dims u k : length2 dims (fun c => k * u c) == k * k * length2 dims u.
Proof. induction dims as [|n IH]; cbn [length2]; [ring|]. rewrite IH. ring. Qed.

Section CVDs.
Variables (dims : nat) (u : vec) (dist : Q).
(* the time T of driving after which the object stops *)
Definition over (T : Q) : bool := Qltb (dist * dist) (T * T * length2 dims u).
Lemma Qltb_eq a b c d : a == c -> b == d -> Qltb a b = Qltb c d.
Proof. intros H1 H2. destruct (Qltb_spec a b), (Qltb_spec c d); auto; exfalso; lra. Qed.
Definition disp_is (disp : vec) (T : Q) : Prop := forall c, disp c == T * u c.
Lemma over_eq disp T : disp_is disp T -> Qltb (dist * dist) (sumsq dims disp) = over T.
Proof. intros H. unfold over. apply Qltb_eq; [reflexivity|]. rewrite sumsq_len, (length2_ext dims disp (fun c => T * u c) H). apply length2_scale. Qed.
Lemma cvd_step ms disp T dt g p : Forall quiet ms -> disp_is disp T -> exists ms' disp' p', Forall quiet ms' /\ disp_is disp' (T + dt) /\
  step dims dt g (ms ++ [CVD u disp dist true], p) = (ms' ++ [CVD u disp' dist (negb (over (T + dt)))], p') /\ driven u p' /\
  forall c, p_x p' c == p_x p c + (p_v p c + (1#2) * dt * p_im p * p_f p c) * dt.
Proof.
  intros H HT. destruct (drive_step dims ms (CVD u disp dist true) dt g p H I) as (ms' & p1 & A & B & C & D). exists ms'. exists (vadd disp (vscale dt u)). eexists. split; [exact A|].
  assert (X : disp_is (vadd disp (vscale dt u)) (T + dt)) by (intros c; unfold vadd, vscale; rewrite (HT c); ring).
  split; [exact X|]. rewrite D. cbn [post_forces fst snd]. rewrite (over_eq _ _ X). split; [reflexivity|].
  split; [apply driven_kick; intros c; cbn; split; reflexivity|]. intros c. cbn. rewrite C. reflexivity.
Qed.
Lemma cvd_still ms disp dt g p : Forall quiet ms -> exists ms' p', Forall quiet ms' /\ step dims dt g (ms ++ [CVD u disp dist false], p) = (ms' ++ [CVD u disp dist false], p') /\ driven vzero p' /\
  forall c, p_x p' c == p_x p c + (p_v p c + (1#2) * dt * p_im p * p_f p c) * dt.
Proof.
  intros H. destruct (drive_step dims ms (CVD u disp dist false) dt g p H I) as (ms' & p1 & A & B & C & D). exists ms'. eexists. split; [exact A|]. split; [exact D|]. cbn [post_forces fst snd].
  split; [apply driven_kick; intros c; cbn; split; reflexivity|]. intros c. cbn. rewrite C. reflexivity.
Qed.
Lemma cvd_rest steps : forall ms disp p, Forall quiet ms -> driven vzero p -> exists ms' p', Forall quiet ms' /\ run dims steps (ms ++ [CVD u disp dist false], p) = (ms' ++ [CVD u disp dist false], p') /\ driven vzero p' /\
  forall c, p_x p' c == p_x p c.
Proof.
  induction steps as [|[dt g] steps IH]; intros ms disp p H D; [exists ms, p; repeat split; auto; apply D|].
  cbn [run fold_left fst snd]. destruct (cvd_still ms disp dt g p H) as (ms1 & p1 & A & B & C & E). change (fold_left (fun s a => step dims (fst a) (snd a) s) steps) with (run dims steps). rewrite B.
  destruct (IH ms1 disp p1 A C) as (ms2 & p2 & A2 & B2 & C2 & E2). exists ms2, p2. split; [exact A2|]. split; [exact B2|]. split; [exact C2|]. intros c. rewrite E2, E. destruct (D c) as [D1 D2]. unfold vzero in D1. rewrite D1, D2. ring.
Qed.
(* while the distance is not exceeded by any proper, nonempty prefix *)
Lemma cvd_run steps : forall ms disp T p, Forall quiet ms -> disp_is disp T -> driven u p ->
  (forall a b, a ++ b = steps -> b <> [] -> over (T + elapsed a) = false) ->
  exists ms' disp' p', Forall quiet ms' /\ disp_is disp' (T + elapsed steps) /\ run dims steps (ms ++ [CVD u disp dist (negb (over T))], p) = (ms' ++ [CVD u disp' dist (negb (over (T + elapsed steps)))], p') /\ driven u p' /\
  forall c, p_x p' c == p_x p c + u c * elapsed steps.
Proof.
  assert (OV : forall a b, a == b -> over a = over b) by (intros a b H; unfold over; apply Qltb_eq; [reflexivity|now rewrite H]).
  induction steps as [|[dt g] steps IH]; intros ms disp T p H HT D Hp.
  - exists ms, disp, p. split; [exact H|]. cbn [elapsed fold_right]. split; [intros c; rewrite (HT c); ring|]. rewrite (OV (T + 0) T) by ring. split; [reflexivity|]. split; [exact D|]. intros c. ring.
  - cbn [run fold_left fst snd]. change (fold_left (fun s a => step dims (fst a) (snd a) s) steps) with (run dims steps).
    assert (O0 : over T = false) by (rewrite <- (Hp [] ((dt, g) :: steps) eq_refl ltac:(discriminate)); apply OV; cbn; ring). rewrite O0. cbn [negb].
    destruct (cvd_step ms disp T dt g p H HT) as (ms1 & disp1 & p1 & A & B & C & E & F). rewrite C.
    destruct (IH ms1 disp1 (T + dt) p1 A B E) as (ms2 & disp2 & p2 & A2 & B2 & C2 & E2 & F2).
    + intros a b Eab Hb. rewrite <- (Hp ((dt, g) :: a) b); [|cbn; now rewrite Eab|exact Hb]. apply OV. cbn [elapsed fold_right fst]. fold (elapsed a). ring.
    + exists ms2, disp2, p2. split; [exact A2|]. cbn [elapsed fold_right fst]. fold (elapsed steps). split; [intros c; rewrite (B2 c); ring|]. rewrite C2. rewrite (OV (T + dt + elapsed steps) (T + (dt + elapsed steps))) by ring.
      split; [reflexivity|]. split; [exact E2|]. intros c. rewrite F2, F. destruct (D c) as [D1 D2]. rewrite D1, D2. ring.
Qed.
End CVDs.
