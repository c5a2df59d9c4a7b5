(* Claims about pictures of particles: C113 (the picture), C114 (which data
   is used), C115 (colours). *)
From Coq Require Import String.
From Verif Require Import Lib Model_Geometry Model_Bmp Model_Palette Model_Picture Spec_Palette Spec_Picture
  Properties_Palette.
From Coq Require Import ZifyBool ZifyNat.
Open Scope Z_scope.

Lemma some_inj {A} (a b : A) : Some a = Some b -> a = b.
Proof. congruence. Qed.

(* ---- C113 *)
Lemma shade_darker col xf yf c : shade col xf yf = Some c <-> darker col (Qsqr xf + Qsqr yf) c.
Proof.
  unfold shade, darker. cbv zeta.
  set (a := (Qsqr xf + Qsqr yf)%Q).
  assert (E : (255 * (1 - (1 # 2) * a) == 255 * (1 - a / 2))%Q) by field.
  rewrite (Qfloor_comp _ _ E). rewrite <- E.
  destruct (Qltb_spec (255 * (1 - (1#2) * a)) 0) as [L|L].
  - split; [discriminate|]. intros [P _]. lra.
  - split.
    + intros Q0. apply some_inj in Q0. subst c. cbn [times_px pr pg pb pa]. split; [lra|]. auto.
    + intros (_ & R & G & B & Al). destruct c as [b g r al]. cbn [pr pg pb pa] in *. unfold times_px. congruence.
Qed.

(* the first draw at a pixel *)
Definition hits (x y : Z) (d : draw) : bool := (d_x d =? x) && (d_y d =? y).
Fixpoint first_hit (x y : Z) (l : list draw) : option draw :=
  match l with
  | [] => None
  | d :: r => if hits x y d then Some d else first_hit x y r
  end.
Lemma first_hit_app x y l l' : first_hit x y (l ++ l') = match first_hit x y l with Some d => Some d | None => first_hit x y l' end.
Proof. induction l as [|d l IH]; [reflexivity|]. simpl. destruct (hits x y d); [reflexivity|exact IH]. Qed.
Lemma first_hit_some x y l d : first_hit x y l = Some d -> In d l /\ d_x d = x /\ d_y d = y.
Proof.
  induction l as [|e l IH]; simpl; [discriminate|]. destruct (hits x y e) eqn:E.
  - intros Q0. apply some_inj in Q0. subst e. unfold hits in E. split; [left; reflexivity|]. lia.
  - intros Q0. destruct (IH Q0) as (A & B). split; [right; exact A|exact B].
Qed.
Lemma first_hit_none x y l : first_hit x y l = None <-> forall d, In d l -> ~ (d_x d = x /\ d_y d = y).
Proof.
  induction l as [|e l IH]; simpl; [split; [intros _ d []|reflexivity]|]. destruct (hits x y e) eqn:E; unfold hits in E.
  - split; [discriminate|]. intros H. exfalso. apply (H e); [left; reflexivity|lia].
  - rewrite IH. split; [intros H d [<- |Hin]; [lia|auto]|auto].
Qed.

(* everything at depth 0: the first draw stays *)
Lemma fold_zero x y l : forall im, (forall d, In d l -> d_depth d = 0%Q) ->
  (forall c d0, im x y = Some (c, d0) -> (d0 == 0)%Q) ->
  fold_left image_set l im x y =
  match im x y with Some v => Some v | None => match first_hit x y l with Some d => Some (d_col d, 0%Q) | None => None end end.
Proof.
  induction l as [|e l IH]; intros im D Z0.
  - simpl. destruct (im x y); reflexivity.
  - cbn [fold_left first_hit].
    assert (D' : forall d, In d l -> d_depth d = 0%Q) by (intros; apply D; right; assumption).
    assert (De : d_depth e = 0%Q) by (apply D; left; reflexivity).
    assert (V : image_set im e x y = if hits x y e then blend (im x y) (d_col e) 0 else im x y).
    { rewrite image_set_eq, De. unfold hits. rewrite (Z.eqb_sym x), (Z.eqb_sym y). reflexivity. }
    assert (V2 : image_set im e x y = match im x y with Some v => Some v | None => if hits x y e then Some (d_col e, 0%Q) else None end).
    { rewrite V. destruct (hits x y e); [|destruct (im x y); reflexivity].
      destruct (im x y) as [[c d0]|] eqn:EI; [|reflexivity]. cbn [blend].
      destruct (Qltb_spec 0 d0) as [L|L]; [|reflexivity]. specialize (Z0 c d0 eq_refl). lra. }
    rewrite IH.
    + rewrite V2. destruct (im x y) as [[c d0]|] eqn:EI; [reflexivity|]. destruct (hits x y e); reflexivity.
    + exact D'.
    + intros c d0. rewrite V2. destruct (im x y) as [[c1 d1]|] eqn:EI.
      * intros Q0. apply some_inj in Q0. injection Q0 as <- <-. apply (Z0 _ _ eq_refl).
      * destruct (hits x y e); [|discriminate]. intros Q0. apply some_inj in Q0. injection Q0 as <- <-. reflexivity.
Qed.

(* black below, particles at depth 0 above *)
Lemma fold_above x y l : forall im c, (forall d, In d l -> d_depth d = 0%Q) ->
  im x y = Some (c, 1000%Q) ->
  fold_left image_set l im x y = match first_hit x y l with Some d => Some (d_col d, 0%Q) | None => Some (c, 1000%Q) end.
Proof.
  induction l as [|e l IH]; intros im c D Z0; [simpl; exact Z0|].
  cbn [fold_left first_hit].
  assert (D' : forall d, In d l -> d_depth d = 0%Q) by (intros; apply D; right; assumption).
  assert (De : d_depth e = 0%Q) by (apply D; left; reflexivity).
  assert (V : image_set im e x y = if hits x y e then Some (d_col e, 0%Q) else Some (c, 1000%Q)).
  { rewrite image_set_eq, De, Z0. unfold hits. rewrite (Z.eqb_sym x), (Z.eqb_sym y). reflexivity. }
  destruct (hits x y e) eqn:H.
  - rewrite fold_zero; [|exact D'|rewrite V; intros c0 d0 Q0; apply some_inj in Q0; injection Q0 as <- <-; reflexivity].
    rewrite V. reflexivity.
  - apply IH; [exact D'|exact V].
Qed.

(* several covers at the same depth: the first one stays *)
Lemma fold_same x y l : forall im c, (forall d, In d l -> d_depth d = 1000%Q) ->
  im x y = Some (c, 1000%Q) -> fold_left image_set l im x y = Some (c, 1000%Q).
Proof.
  induction l as [|e l IH]; intros im c D Z0; [exact Z0|]. cbn [fold_left]. apply IH.
  - intros; apply D; right; assumption.
  - rewrite image_set_eq, (D e) by (left; reflexivity). rewrite Z0. destruct (_ && _); reflexivity.
Qed.

Lemma cover_depth p c d e : In e (cover p c d) -> d_depth e = d.
Proof.
  unfold cover. intros H. apply in_flat_map in H. destruct H as (y & _ & H).
  apply in_flat_map in H. destruct H as (x & _ & H). apply in_set_px in H. destruct H as (_ & _ & ->). reflexivity.
Qed.

Lemma cover_black p x y : part_of_picture p -> o0 p <= x < o1 p -> o2 p <= y < o3 p -> forall c,
  fold_left image_set (cover p c 1000) new_image x y = Some (c, 1000%Q).
Proof.
  intros P X Y c. change (drawn (cover p c 1000) x y = Some (c, 1000%Q)).
  destruct (drawn_spec (cover p c 1000) x y) as [[_ F]|(k & d & (T1 & _) & V)].
  - exfalso. apply (F (mkDraw x y c 1000)); [|split; reflexivity].
    apply C108_cover; [exact P|]. cbn [d_x d_y d_col d_depth]. repeat split; lia.
  - rewrite V. apply nth_error_In in T1. apply C108_cover in T1; [|exact P].
    destruct T1 as (_ & _ & -> & ->). reflexivity.
Qed.

Lemma new_palette_some w h p : new_palette w h = Some p ->
  p = mkPal 0 w 0 h w h (Some (1, inject_Z h / inject_Z w)%Q) /\ 0 < w /\ 0 < h.
Proof.
  unfold new_palette. destruct ((w <=? 0) || (h <=? 0)) eqn:E; [discriminate|]. intros Q0. apply some_inj in Q0.
  split; [symmetry; exact Q0|]. lia.
Qed.

Definition fits (s : scene) (t : dot) : Prop :=
  (0 <= t_x t - s_left s < s_wx s)%Q /\ (0 <= t_y t - s_bott s < s_wy s)%Q /\
  (0 <= s_mult s * t_sigma t <= s_wx s)%Q /\ (s_mult s * t_sigma t <= s_wy s)%Q.

Definition covered (s : scene) (r : palette) (t : dot) (i j : Z) (c : px) : Prop :=
  covers r (s_wx s) (s_wy s) (t_x t - s_left s) (t_y t - s_bott s) (s_mult s * t_sigma t) (s_wrap s) (t_col t) i j c.

(* one particle *)
Lemma circle_covered s r t a : part_of_picture r -> space r = Some (s_wx s, s_wy s) ->
  (0 < s_wx s)%Q -> (0 < s_wy s)%Q -> fits s t ->
  circle r (t_x t - s_left s) (t_y t - s_bott s) (s_mult s * t_sigma t) (shade (t_col t)) (s_wrap s) 0 = Some a ->
  (forall d, In d a -> d_depth d = 0%Q) /\
  (forall i j c, (exists d, In d a /\ d_x d = i /\ d_y d = j /\ d_col d = c) <-> covered s r t i j c).
Proof.
  intros P S WX WY (F1 & F2 & F3 & F4) E.
  assert (W : 0 < get_width r /\ 0 < get_height r) by (destruct P as ((?&?)&?&(?&?)&?); unfold get_width, get_height; lia).
  assert (T1 := trunc_pixel (get_width r) (s_wx s) (t_x t - s_left s) (proj1 W) WX (proj1 F1)).
  assert (T2 := trunc_pixel (get_height r) (s_wy s) (t_y t - s_bott s) (proj2 W) WY (proj1 F2)).
  assert (C := C109_circle_partial r (s_wx s) (s_wy s) _ _ _ _ _ _ a _ _ P S WX WY F1 F2 F3 F4 E T1 T2).
  set (px0 := Qtrunc ((t_x t - s_left s) * (inject_Z (get_width r) / s_wx s))) in *.
  set (py0 := Qtrunc ((t_y t - s_bott s) * (inject_Z (get_height r) / s_wy s))) in *.
  split.
  - intros d Hin. apply C in Hin. destruct Hin as (dx & dy & _ & _ & _ & [(_ & _ & _ & _ & ->)|(_ & _ & _ & _ & ->)]); reflexivity.
  - intros i j c. split.
    + intros (d & Hin & <- & <- & <-). apply C in Hin. destruct Hin as (dx & dy & D & A1 & A2 & K). cbv zeta in A1, A2, K.
      exists px0, py0, dx, dy. split; [exact T1|]. split; [exact T2|]. split; [exact D|]. cbv zeta.
      split; [intros Sm; assert (A := proj1 (shade_darker _ _ _ _) (A1 Sm)); unfold Qsqr in A;
              change (0 * 0 + 0 * 0)%Q with 0%Q in A; exact A|].
      split; [intros Sm; apply shade_darker, A2; exact Sm|].
      destruct K as [(K1 & K2 & K3 & K4 & _)|(K1 & K2 & K3 & K4 & _)]; [left; auto|right; auto].
    + intros (px1 & py1 & dx & dy & P1 & P2 & D & A1 & A2 & K). cbv zeta in A1, A2, K.
      assert (px1 = px0) by (eapply pixel_unique; [exact P1|exact T1]).
      assert (py1 = py0) by (eapply pixel_unique; [exact P2|exact T2]). subst px1 py1.
      exists (mkDraw i j c 0). split; [|auto]. apply C. exists dx, dy. split; [exact D|].
      cbv zeta. cbn [d_col d_x d_y d_depth].
      split; [intros Sm; apply shade_darker; exact (A1 Sm)|].
      split; [intros Sm; apply shade_darker; apply A2; exact Sm|].
      destruct K as [(K1 & K2 & K3 & K4)|(K1 & K2 & K3 & K4)]; [left; auto|right; auto].
Qed.

(* all particles: the first one that covers a pixel *)
Lemma dots_first s r : part_of_picture r -> space r = Some (s_wx s, s_wy s) ->
  (0 < s_wx s)%Q -> (0 < s_wy s)%Q -> forall l a, Forall (fits s) l -> dots s r l = Some a ->
  (forall d, In d a -> d_depth d = 0%Q) /\
  forall i j,
  match first_hit i j a with
  | None => forall t c, In t l -> ~ covered s r t i j c
  | Some d => exists m t, nth_error l m = Some t /\ covered s r t i j (d_col d) /\
      forall m' t' c, (m' < m)%nat -> nth_error l m' = Some t' -> ~ covered s r t' i j c
  end.
Proof.
  intros P S WX WY. induction l as [|t l IH]; intros a F E; cbn [dots] in E.
  - apply some_inj in E. subst a. split; [intros d []|]. intros i j. cbn [first_hit]. intros t c [].
  - inversion F as [|? ? Ft Fl]; subst.
    destruct (circle r _ _ _ _ _ _) as [a1|] eqn:E1; [|discriminate].
    destruct (dots s r l) as [a2|] eqn:E2; [|discriminate]. apply some_inj in E. subst a.
    destruct (circle_covered s r t a1 P S WX WY Ft E1) as [D1 C1]. destruct (IH a2 Fl eq_refl) as [D2 C2].
    split; [intros d Hin; apply in_app_or in Hin; destruct Hin; auto|].
    intros i j. rewrite first_hit_app. destruct (first_hit i j a1) as [d|] eqn:H1.
    + exists 0%nat, t. split; [reflexivity|]. split; [|intros; lia].
      apply first_hit_some in H1. apply C1. exists d. destruct H1 as (? & ? & ?). auto.
    + assert (N : forall c, ~ covered s r t i j c).
      { intros c Hc. apply C1 in Hc. destruct Hc as (d & Hin & X & Y & _).
        rewrite first_hit_none in H1. apply (H1 d Hin). auto. }
      specialize (C2 i j). destruct (first_hit i j a2) as [d|].
      * destruct C2 as (m & t' & M1 & M2 & M3). exists (Datatypes.S m), t'. split; [exact M1|]. split; [exact M2|].
        intros [|m'] t'' c L Q0; [simpl in Q0; apply some_inj in Q0; subst t''; apply N|].
        apply (M3 m' t'' c); [lia|exact Q0].
      * intros t' c [<- |Hin]; [apply N|apply C2; exact Hin].
Qed.

Lemma palettes_some s p q r : palettes s = Some (p, q, r) ->
  part_of_picture p /\ o0 p = 0 /\ o1 p = pw p /\ o2 p = 0 /\ o3 p = ph p /\ 0 < pw p /\ 0 < ph p /\
  pw p = fst (resolution s) /\ ph p = snd (resolution s) /\ space r = Some (s_wx s, s_wy s).
Proof.
  unfold palettes. destruct (new_palette _ _) as [p0|] eqn:E; [|discriminate].
  destruct (new_palette_some _ _ _ E) as (-> & W & H).
  destruct (sub_centered _ _) as [q0|]; [|discriminate]. destruct (sub_max _ _ _) as [r0|]; [|discriminate].
  intros Q0. apply some_inj in Q0. injection Q0 as <- <- <-. unfold part_of_picture. simpl. repeat split; lia.
Qed.

(* C113: every pixel of the picture shows the first particle that covers it,
   or is black. *)
Theorem C113_picture_partial s l w h a p q r : create_image s l = Some (w, h, a) ->
  palettes s = Some (p, q, r) -> part_of_picture r -> (0 < s_wx s)%Q -> (0 < s_wy s)%Q ->
  (forall t, In t l ->
    (0 <= t_x t - s_left s < s_wx s)%Q /\ (0 <= t_y t - s_bott s < s_wy s)%Q /\
    (0 <= s_mult s * t_sigma t <= s_wx s)%Q /\ (s_mult s * t_sigma t <= s_wy s)%Q) ->
  let shown i j := get_pixel (to_bmp a w h) i j in
  let hit t i j c := covers r (s_wx s) (s_wy s) (t_x t - s_left s) (t_y t - s_bott s)
                            (s_mult s * t_sigma t) (s_wrap s) (t_col t) i j c in
  w = fst (resolution s) /\ h = snd (resolution s) /\
  forall i j, 0 <= i < w -> 0 <= j < h ->
  ((forall t c, In t l -> ~ hit t i j c) -> shown i j = mkPx 0 0 0 0) /\
  ((exists t c, In t l /\ hit t i j c) ->
   exists m t, nth_error l m = Some t /\ hit t i j (shown i j) /\
   forall m' t' c, (m' < m)%nat -> nth_error l m' = Some t' -> ~ hit t' i j c).
Proof.
  intros E EP Pr WX WY F shown hit.
  destruct (palettes_some s p q r EP) as (Pp & O0 & O1 & O2 & O3 & W & H & RW & RH & S).
  unfold create_image in E. rewrite EP in E. destruct (dots s r l) as [b|] eqn:ED; [|discriminate].
  apply some_inj in E. injection E as <- <- <-.
  split; [exact RW|]. split; [exact RH|]. intros i j I J.
  assert (FF : Forall (fits s) l) by (apply Forall_forall; exact F).
  destruct (dots_first s r Pr S WX WY l b FF ED) as [D C]. specialize (C i j).
  assert (V : drawn (cover p (mkPx 0 0 0 0) 1000 ++ cover q (mkPx 255 255 255 0) 1000 ++ cover r (s_back s) 1000 ++ b) i j
     = match first_hit i j b with Some d => Some (d_col d, 0%Q) | None => Some (mkPx 0 0 0 0, 1000%Q) end).
  { unfold drawn. rewrite !fold_left_app. apply fold_above; [exact D|].
    apply fold_same; [intros d Hd; eapply cover_depth; exact Hd|].
    apply fold_same; [intros d Hd; eapply cover_depth; exact Hd|].
    apply cover_black; [exact Pp| |]; lia. }
  destruct (to_bmp_pixel (cover p (mkPx 0 0 0 0) 1000 ++ cover q (mkPx 255 255 255 0) 1000 ++ cover r (s_back s) 1000 ++ b)
     (pw p) (ph p) i j W H I J) as (_ & _ & G).
  rewrite V in G. unfold shown. rewrite G. clear G V.
  destruct (first_hit i j b) as [d|].
  - destruct C as (m & t & M1 & M2 & M3). split.
    + intros N. exfalso. apply (N t (d_col d)); [eapply nth_error_In; exact M1|exact M2].
    + intros _. exists m, t. split; [exact M1|]. split; [exact M2|exact M3].
  - split; [reflexivity|]. intros (t & c & Hin & Hc). exfalso. exact (C t c Hin Hc).
Qed.
Print Assumptions C113_picture_partial.

(* A system that is at least as high as it is wide: there is a picture, and
   its region has the right proportions. *)
Lemma dots_some s r l : space r = Some (s_wx s, s_wy s) -> exists a, dots s r l = Some a.
Proof.
  intros S. induction l as [|t l [a IH]]; [eexists; reflexivity|]. cbn [dots]. rewrite IH.
  unfold circle. rewrite S. eexists. reflexivity.
Qed.

Theorem C113_region_partial s : (0 < s_wx s)%Q -> (s_wx s <= s_wy s)%Q ->
  forall wd, wd = Qfloor (s_wx s / s_wy s * inject_Z (s_res s)) -> 1 <= wd ->
  exists p q r, palettes s = Some (p, q, r) /\ part_of_picture r /\
  (forall l, exists a, create_image s l = Some (wd, s_res s, a)) /\
  let b := Qfloor (inject_Z wd * (1#100)) in
  b <= o0 r /\ o1 r <= wd - b /\ b <= o2 r /\ o3 r <= s_res s - b /\
  get_width r = wd - 2 * b /\
  Qfloor (inject_Z (get_width r) * s_wy s / s_wx s) <= get_height r
    <= Qfloor (inject_Z (get_width r) * s_wy s / s_wx s) + 1.
Proof.
  intros WX WXY wd Ew Hw. assert (WY : (0 < s_wy s)%Q) by lra.
  assert (K : (0 < s_wx s / s_wy s <= 1)%Q).
  { split; [apply ratio_pos; assumption|]. apply Qle_shift_div_r; lra. }
  assert (RP : 1 <= s_res s).
  { destruct (Z.le_gt_cases 1 (s_res s)) as [|C]; [assumption|]. exfalso.
    assert (C' : (inject_Z (s_res s) <= 0)%Q) by (change 0%Q with (inject_Z 0); rewrite <- Zle_Qle; lia).
    assert (N : (s_wx s / s_wy s * inject_Z (s_res s) <= inject_Z 0)%Q) by (change (inject_Z 0) with 0%Q; nra).
    apply floor_le_Z in N. lia. }
  assert (RP' : (0 < inject_Z (s_res s))%Q) by (apply inject_pos; lia).
  assert (EW2 : (inject_Z wd <= s_wx s / s_wy s * inject_Z (s_res s))%Q) by (rewrite Ew; apply Qfloor_le).
  assert (WR : wd <= s_res s).
  { rewrite Ew. apply floor_le_Z. nra. }
  assert (RES : resolution s = (wd, s_res s)).
  { unfold resolution. destruct (Qltb_spec (s_wy s) (s_wx s)); [lra|].
    destruct (Qltb_spec (s_wx s) (s_wy s)) as [L|L].
    - rewrite trunc_nonneg by (apply Qmult_le_0_compat; lra). rewrite Ew. reflexivity.
    - f_equal. rewrite Ew. symmetry. rewrite <- (Qfloor_Z (s_res s)) at 2. apply Qfloor_comp.
      assert (EE : (s_wx s == s_wy s)%Q) by lra. rewrite EE. field. lra. }
  set (p := mkPal 0 wd 0 (s_res s) wd (s_res s) (Some (1, inject_Z (s_res s) / inject_Z wd)%Q)).
  assert (EP : new_palette wd (s_res s) = Some p).
  { unfold new_palette. replace ((wd <=? 0) || (s_res s <=? 0)) with false by lia. reflexivity. }
  assert (PP : part_of_picture p) by (unfold part_of_picture; simpl; lia).
  assert (GW : get_width p = wd) by (unfold get_width; simpl; lia).
  assert (GH : get_height p = s_res s) by (unfold get_height; simpl; lia).
  assert (PC := C110_centered_partial p (1#100)). rewrite GW, GH in PC.
  set (b := Qfloor (inject_Z wd * (1#100))) in *.
  assert (Wp : (0 < inject_Z wd)%Q) by (apply inject_pos; lia).
  assert (B0 : 0 <= b) by (apply floor_nonneg; lra).
  assert (B1 : 2 * b < wd).
  { assert (L := Qfloor_le (inject_Z wd * (1#100))). fold b in L.
    assert (M : (inject_Z (2 * b) < inject_Z wd)%Q) by (rewrite inject_Z_mult; change (inject_Z 2) with 2%Q; lra).
    rewrite <- Zlt_Qlt in M. exact M. }
  destruct PC as [PC _]; [lia|split; [lra|reflexivity]|]. destruct PC as (q & Q1 & Q2 & Q3 & Q4 & Q5); [lia|].
  assert (Pq := Q4 PP).
  assert (BNDq : o0 q = b /\ o1 q = wd - b /\ o2 q = b /\ o3 q = s_res s - b).
  { unfold sub_centered in Q1. destruct (Qle_bool (1#2) (1#100)) eqn:E0; [discriminate|]. clear E0.
    rewrite trunc_nonneg in Q1 by (rewrite GW; lra). rewrite GW, GH in Q1. fold b in Q1. unfold sub_palette in Q1.
    rewrite GW, GH in Q1.
    replace ((wd - b <? b) || (s_res s - b <? b)) with false in Q1 by lia.
    replace (b <? 0) with false in Q1 by lia. replace (wd <=? b) with false in Q1 by lia.
    replace (s_res s <? b) with false in Q1 by lia. cbn [o0 o1 o2 o3 p] in Q1.
    replace ((0 + (wd - b) <=? 0 + b) || (0 + (s_res s - b) <=? 0 + b)) with false in Q1 by lia.
    apply some_inj in Q1. subst q. simpl. lia. }
  (* the region *)
  assert (FIT : (inject_Z (get_width q) * s_wy s <= inject_Z (get_height q) * s_wx s)%Q).
  { rewrite Q2, Q3. unfold Z.sub. rewrite !inject_Z_plus, !inject_Z_opp, !inject_Z_mult. change (inject_Z 2) with 2%Q.
    assert (M : (inject_Z wd * s_wy s <= inject_Z (s_res s) * s_wx s)%Q).
    { assert (X : (s_wx s == s_wx s / s_wy s * s_wy s)%Q) by (field; lra). rewrite X.
      set (k := (s_wx s / s_wy s)%Q) in *. clearbody k. nra. }
    assert (B' : (0 <= inject_Z b)%Q) by (change 0%Q with (inject_Z 0); rewrite <- Zle_Qle; lia). nra. }
  assert (RG : exists r0, sub_max q (s_wx s) (s_wy s) = Some r0 /\ part_of_picture r0 /\ get_width r0 = get_width q /\
     Qfloor (inject_Z (get_width q) * s_wy s / s_wx s) <= get_height r0 <= Qfloor (inject_Z (get_width q) * s_wy s / s_wx s) + 1 /\
     b <= o0 r0 /\ o1 r0 <= wd - b /\ b <= o2 r0 /\ o3 r0 <= s_res s - b).
  { assert (BB : forall mx Mx my My r0, sub_palette q mx Mx my My = Some r0 -> Mx <= get_width q -> My <= get_height q ->
        b <= o0 r0 /\ o1 r0 <= wd - b /\ b <= o2 r0 /\ o3 r0 <= s_res s - b).
    { intros mx Mx my My r0 Er M1 M2. unfold sub_palette in Er.
      destruct ((Mx <? mx) || (My <? my)); [discriminate|].
      match type of Er with (if ?c then _ else _) = _ => destruct c eqn:Ec end; [discriminate|].
      apply some_inj in Er. subst r0. cbn [o0 o1 o2 o3].
      destruct (mx <? 0) eqn:U1, (get_width q <=? mx) eqn:U2, (my <? 0) eqn:U3, (get_height q <? my) eqn:U4; lia. }
    assert (GQ : 0 < get_width q /\ 0 < get_height q) by lia.
    destruct (C110_max_partial q (s_wx s) (s_wy s) (proj1 GQ) (proj2 GQ) WX WY) as [M1 M2].
    assert (NATIVE : 0 <= get_width q / get_height q <= 1).
    { split; [apply Z.div_pos; lia|]. apply Z.div_le_upper_bound; lia. }
    destruct (Qlt_le_dec (inject_Z (get_width q / get_height q)) (s_wx s / s_wy s)) as [L|L].
    - assert (H1 : 1 <= Qfloor (inject_Z (get_width q) * s_wy s / s_wx s)).
      { apply Z.le_trans with (get_width q); [lia|]. rewrite <- (Qfloor_Z (get_width q)) at 1. apply Qfloor_resp_le.
        apply Qle_shift_div_l; [exact WX|].
        assert (0 < inject_Z (get_width q))%Q by (apply inject_pos; lia). nra. }
      destruct (M1 FIT L _ eq_refl H1) as (r0 & R1 & R2 & R3 & R4 & R5 & _). exists r0.
      split; [exact R1|]. split; [exact (R5 Pq)|]. split; [exact R2|]. split; [exact R3|].
      unfold sub_max in R1. destruct (_ || _); [discriminate|].
      match type of R1 with (if ?c then _ else _) = _ => destruct c end; apply (BB _ _ _ _ _ R1).
      + lia.
      + set (gp := Z.quot _ 2) in R1. assert (0 <= gp \/ gp < 0) as [|C] by lia; [lia|]. exfalso.
        (* a negative gap: the height would exceed the palette *)
        unfold gp in C. rewrite trunc_nonneg in C.
        2:{ apply Qlt_le_weak, ratio_pos; [apply inject_pos; lia|apply ratio_pos; assumption]. }
        assert (HH : Qfloor (inject_Z (get_width q) / (s_wx s / s_wy s)) <= get_height q).
        { apply floor_le_Z. apply Qle_shift_div_r; [apply ratio_pos; assumption|].
          apply Qle_trans with (inject_Z (get_height q) * s_wx s / s_wy s)%Q.
          - apply Qle_shift_div_l; [exact WY|exact FIT].
          - apply Qle_lteq. right. field. lra. }
        rewrite Z.quot_div_nonneg in C by lia. pose proof (Z.div_pos (get_height q - Qfloor (inject_Z (get_width q) / (s_wx s / s_wy s))) 2). lia.
      + set (gp := Z.quot _ 2) in R1. assert (0 <= gp \/ gp < 0) as [|C] by lia; [lia|]. exfalso.
        assert (get_width r0 = get_width q) by exact R2.
        unfold sub_palette in R1. destruct ((_ <? gp) || _); [discriminate|].
        match type of R1 with (if ?c then _ else _) = _ => destruct c end; [discriminate|]. apply some_inj in R1.
        rewrite <- R1 in H. unfold get_width at 1 in H. cbn [o0 o1] in H. replace (gp <? 0) with true in H by lia. lia.
      + lia.
    - (* square *)
      assert (E1 : get_width q / get_height q = 1).
      { destruct (Z.eq_dec (get_width q / get_height q) 0) as [Z0|]; [|lia]. rewrite Z0 in L. change (inject_Z 0) with 0%Q in L. lra. }
      assert (EQ : (s_wx s == s_wy s)%Q).
      { rewrite E1 in L. change (inject_Z 1) with 1%Q in L.
        assert (SQ : get_height q <= get_width q) by (pose proof (Z.mul_div_le (get_width q) (get_height q) ltac:(lia)); lia).
        rewrite Q2, Q3 in SQ. assert (SR : wd = s_res s) by lia.
        assert (KK : (1 <= s_wx s / s_wy s)%Q).
        { rewrite SR in EW2. set (k := (s_wx s / s_wy s)%Q) in *. clearbody k. nra. }
        assert (X : (s_wx s == s_wx s / s_wy s * s_wy s)%Q) by (field; lra).
        set (k := (s_wx s / s_wy s)%Q) in *. clearbody k. assert (k == 1)%Q by lra. rewrite H in X. lra. }
      assert (HW : get_width q = get_height q).
      { assert (SQ : get_height q <= get_width q) by (pose proof (Z.mul_div_le (get_width q) (get_height q) ltac:(lia)); lia). lia. }
      assert (F1 : Qfloor (inject_Z (get_height q) * s_wx s / s_wy s) = get_height q).
      { rewrite <- (Qfloor_Z (get_height q)) at 2. apply Qfloor_comp. rewrite EQ. field. lra. }
      assert (F2 : Qfloor (inject_Z (get_width q) * s_wy s / s_wx s) = get_width q).
      { rewrite <- (Qfloor_Z (get_width q)) at 2. apply Qfloor_comp. rewrite EQ. field. lra. }
      destruct (M2 L _ (eq_sym F1) ltac:(lia)) as (r0 & R1 & R2 & R3 & R4 & R5 & _). exists r0.
      split; [exact R1|]. split; [exact (R5 Pq)|]. split; [lia|]. split; [lia|].
      unfold sub_max in R1. destruct (_ || _); [discriminate|].
      destruct (Qltb_spec (inject_Z (Z.quot (get_width q) (get_height q))) (s_wx s / s_wy s)) as [LL|LL].
      { exfalso. rewrite Z.quot_div_nonneg in LL by lia. lra. }
      apply (BB _ _ _ _ _ R1); [|lia].
      assert (T : Qtrunc (s_wx s / s_wy s * inject_Z (get_height q)) = get_height q).
      { rewrite trunc_nonneg by (apply Qmult_le_0_compat; [lra|apply Qlt_le_weak, inject_pos; lia]).
        rewrite <- F1 at 2. apply Qfloor_comp. field. lra. }
      rewrite T, HW, Z.sub_diag. change (0 ÷ 2) with 0. lia. }
  destruct RG as (r0 & R1 & R2 & R3 & R4 & R5).
  assert (PAL : palettes s = Some (p, q, set_space r0 (s_wx s) (s_wy s))).
  { unfold palettes. rewrite RES. cbn [fst snd]. rewrite EP, Q1, R1. reflexivity. }
  exists p, q, (set_space r0 (s_wx s) (s_wy s)). split; [exact PAL|]. split; [exact R2|]. split.
  - intros l. unfold create_image. rewrite PAL.
    destruct (dots_some s (set_space r0 (s_wx s) (s_wy s)) l eq_refl) as [a Ea]. rewrite Ea.
    eexists. reflexivity.
  - cbv zeta. change (get_width (set_space r0 (s_wx s) (s_wy s))) with (get_width r0).
    change (get_height (set_space r0 (s_wx s) (s_wy s))) with (get_height r0).
    cbn [set_space o0 o1 o2 o3]. rewrite R3. destruct R5 as (R5 & R6 & R7 & R8).
    split; [exact R5|]. split; [exact R6|]. split; [exact R7|]. split; [exact R8|]. split; [exact Q2|exact R4].
Qed.
Print Assumptions C113_region_partial.

(* Two particles that overlap, and one at the corner of the region, whose
   disc comes back on the other sides. *)
Definition dots_example : list dot :=
  [mkDot 6 6 2 (mkPx 0 0 200 0); mkDot 7 6 2 (mkPx 200 0 0 0); mkDot 0 0 1 (mkPx 0 100 0 0)].
Definition scene_example (wx wy : Q) (res : Z) : scene := mkScene wx wy 0 0 res (mkPx 0 0 0 0) true 1.
Definition image_example := Eval vm_compute in create_image (scene_example 12 12 12) dots_example.
Example C113_picture_case :
  create_image (scene_example 12 12 12) dots_example = image_example /\
  match image_example with
  | None => False
  | Some (w, h, a) =>
      w = 12 /\ h = 12 /\
      map (fun i => get_pixel (to_bmp a w h) i 5) [3; 4; 8; 9; 10] =
        [mkPx 0 0 0 0; mkPx 0 0 200 0; mkPx 0 0 200 0; mkPx 200 0 0 0; mkPx 0 0 0 0] /\
      map (fun i => get_pixel (to_bmp a w h) i 11) [0; 1; 2; 10; 11] =
        [mkPx 0 100 0 0; mkPx 0 100 0 0; mkPx 0 0 0 0; mkPx 0 0 0 0; mkPx 0 100 0 0]
  end.
Proof. split; [vm_compute; reflexivity|]. vm_compute. repeat split. Qed.

(* A system that is wider than high: the region of the particles reaches over
   the border of the picture. *)
Theorem C113_wide_refuted : exists p q r, palettes (scene_example 3 2 1536) = Some (p, q, r) /\
  o3 q = 1024 - 15 /\ o3 r = 1024 - 10.
Proof. do 3 eexists. split; [vm_compute; reflexivity|]. split; reflexivity. Qed.
Print Assumptions C113_wide_refuted.

(* A flat system: no picture at all. *)
Theorem C113_flat_refuted l : create_image (scene_example 100 1 1536) l = None.
Proof.
  unfold create_image. replace (palettes (scene_example 100 1 1536)) with (@None (palette * palette * palette)) by (vm_compute; reflexivity).
  reflexivity.
Qed.
Print Assumptions C113_flat_refuted.

(* ---- C114 *)
Lemma find_from_first key l : forall k j, first_named l key j -> find_from k key l = k + Z.of_nat j.
Proof.
  induction l as [|s l IH]; intros k j [F N]; [destruct j; discriminate|]. cbn [find_from].
  destruct j as [|j].
  - simpl in F. apply some_inj in F. subst s. rewrite String.eqb_refl. lia.
  - destruct (String.eqb_spec key s) as [->|NE].
    + exfalso. apply (N 0%nat); [lia|reflexivity].
    + rewrite (IH (k + 1) j); [lia|]. split; [exact F|]. intros k' L. apply (N (Datatypes.S k')). lia.
Qed.
Lemma find_from_none key l : forall k, ~ In key l -> find_from k key l = -1.
Proof.
  induction l as [|s l IH]; intros k N; [reflexivity|]. cbn [find_from].
  destruct (String.eqb_spec key s) as [->|NE]; [exfalso; apply N; left; reflexivity|]. apply IH. intros H. apply N. right. exact H.
Qed.
Lemma first_lt l key j : first_named l key j -> (j < length l)%nat.
Proof. intros [F _]. apply nth_error_Some. congruence. Qed.

Lemma skipn_concat {A} (d : nat) (vs : list (list A)) rest : Forall (fun v => length v = d) vs -> forall k v,
  nth_error vs k = Some v -> firstn d (skipn (k * d) (concat vs ++ rest)) = v.
Proof.
  induction 1 as [|v0 vs E F IH]; intros k v H; [destruct k; discriminate|].
  cbn [concat]. rewrite <- app_assoc. destruct k as [|k].
  - simpl in H. apply some_inj in H. subst v0. rewrite Nat.mul_0_l. cbn [skipn]. rewrite <- E.
    rewrite firstn_app, Nat.sub_diag, firstn_all, firstn_O, app_nil_r. reflexivity.
  - simpl in H. replace (Datatypes.S k * d)%nat with (length v0 + k * d)%nat by (rewrite E; lia).
    rewrite skipn_app, skipn_all2 by lia. replace (length v0 + k * d - length v0)%nat with (k * d)%nat by lia.
    apply IH. exact H.
Qed.
Lemma concat_length_all {A} (d : nat) (vs : list (list A)) : Forall (fun v => length v = d) vs -> length (concat vs) = (length vs * d)%nat.
Proof. induction 1 as [|v vs E F IH]; [reflexivity|]. cbn [concat length]. rewrite app_length, IH, E. lia. Qed.

Lemma Qtrunc_Z z : Qtrunc (inject_Z z) = z.
Proof.
  unfold Qtrunc. destruct (Qltb _ _); [|apply Qfloor_Z].
  change (- inject_Z z)%Q with (inject_Z (- z)). rewrite Qfloor_Z. lia.
Qed.
Lemma Qtrunc_neg q : (q < 0)%Q -> Qtrunc q = Qceiling q.
Proof. intros H. unfold Qtrunc. destruct (Qltb_spec q 0); [reflexivity|lra]. Qed.

(* C114: the values of a particle are found by their names. *)
Theorem C114_values n c vecs scas ints : 0 < n_dim n ->
  length vecs = length (n_vec n) -> length scas = length (n_sca n) -> length ints = length (n_int n) ->
  Forall (fun v => Z.of_nat (length v) = n_dim n) vecs ->
  let data := concat vecs ++ scas ++ map inject_Z ints in
  let u := get_values n (find_places n c) data in
  forall kx ks, first_named (n_vec n) "X" kx -> first_named (n_sca n) "Sg" ks ->
  do_checks (Z.of_nat (length data)) (find_places n c) = true /\
  nth_error vecs kx = Some (u_pos u) /\
  nth_error scas ks = Some (u_sigma u) /\
  (forall k, c_method c = 1 -> first_named (n_vec n) (c_name c) k -> nth_error vecs k = u_v u) /\
  (forall k, c_method c = 2 -> first_named (n_sca n) (c_name c) k -> nth_error scas k = Some (u_s u)) /\
  (forall k, c_method c = 3 -> first_named (n_int n) (c_name c) k -> nth_error ints k = Some (u_i u)).
Proof.
  intros D Lv Ls Li F data u kx ks FX FS. subst u.
  set (d := Z.to_nat (n_dim n)). assert (Dd : Z.of_nat d = n_dim n) by (unfold d; lia).
  assert (F' : Forall (fun v => length v = d) vecs) by (eapply Forall_impl; [|exact F]; intros; simpl in *; unfold d; lia).
  assert (LC : length (concat vecs) = (length (n_vec n) * d)%nat) by (rewrite (concat_length_all d) by exact F'; lia).
  assert (BX := first_lt _ _ _ FX). assert (BS := first_lt _ _ _ FS).
  assert (VEC : forall k j, (k < length vecs)%nat -> j = Z.of_nat k * n_dim n ->
     nth_error vecs k = Some (vector_at data (n_dim n) j)).
  { intros k j B ->. destruct (nth_error vecs k) as [v|] eqn:EV; [|apply nth_error_None in EV; lia].
    f_equal. unfold vector_at, data. replace (Z.to_nat (Z.of_nat k * n_dim n)) with (k * d)%nat by lia.
    fold d. symmetry. apply skipn_concat; assumption. }
  assert (SCA : forall k j, (k < length scas)%nat -> j = 0 + Z.of_nat k + Z.of_nat (length (n_vec n)) * n_dim n ->
     nth_error scas k = Some (value_at data j)).
  { intros k j B ->. unfold value_at, data. rewrite app_nth2 by (rewrite LC; lia).
    replace (Z.to_nat (0 + Z.of_nat k + Z.of_nat (length (n_vec n)) * n_dim n) - length (concat vecs))%nat with k by (rewrite LC; lia).
    rewrite app_nth1 by exact B. apply nth_error_nth'. exact B. }
  assert (INT : forall k j, (k < length ints)%nat ->
     j = 0 + Z.of_nat k + (Z.of_nat (length (n_vec n)) * n_dim n + Z.of_nat (length (n_sca n))) ->
     nth_error ints k = Some (Qtrunc (value_at data j))).
  { intros k j B ->. unfold value_at, data. rewrite app_nth2 by (rewrite LC; lia).
    rewrite app_nth2 by (rewrite LC; lia).
    match goal with |- context [nth ?e (map inject_Z ints) 0%Q] => replace e with k by (rewrite LC; lia) end.
    change 0%Q with (inject_Z 0). rewrite map_nth. rewrite Qtrunc_Z. apply nth_error_nth'. exact B. }
  unfold find_places, find. cbv zeta. rewrite (find_from_first "X" _ 0 kx FX), (find_from_first "Sg" _ 0 ks FS).
  unfold get_values, do_checks. cbn [l_pos l_sg l_v l_s l_i u_pos u_sigma u_v u_s u_i].
  assert (LD : (length data > 0)%nat).
  { unfold data. rewrite !app_length, map_length. lia. }
  replace (Z.of_nat (length data) =? 0) with false by lia.
  replace ((0 + Z.of_nat kx) * n_dim n <? 0) with false by lia.
  replace (0 + Z.of_nat ks + Z.of_nat (length (n_vec n)) * n_dim n <? 0) with false by lia.
  split; [reflexivity|].
  split; [apply VEC; lia|]. split; [apply SCA; lia|].
  split; [|split]; intros k M FK; rewrite M; assert (BK := first_lt _ _ _ FK); cbn [Z.eqb Pos.eqb];
    rewrite (find_from_first (c_name c) _ 0 k FK).
  - replace (0 <=? (0 + Z.of_nat k) * n_dim n) with true by lia. apply VEC; lia.
  - replace (0 <=? 0 + Z.of_nat k + Z.of_nat (length (n_vec n)) * n_dim n) with true by lia. apply SCA; lia.
  - match goal with |- context [0 <=? ?j] => replace (0 <=? j) with true by lia end. apply INT; lia.
Qed.
Print Assumptions C114_values.

Definition names_example : names := mkNames ["X"; "V"]%string ["Sg"; "Distance"]%string ["Type"; "ID"]%string 2.
Example C114_values_case :
  let c := set_option names_example 4 (mkChoice 0 "" 0 true) in
  get_values names_example (find_places names_example c) [1; 2; 3; 4; 5; 6; 7; 8]%Q = mkValues [1; 2]%Q 5 None 6 0.
Proof. reflexivity. Qed.

(* Without positions the check fails. *)
Theorem C114_positions n c width : 0 < n_dim n -> ~ In "X"%string (n_vec n) -> do_checks width (find_places n c) = false.
Proof.
  intros D N. unfold do_checks, find_places. cbn [l_pos]. unfold find. rewrite (find_from_none _ _ _ N).
  destruct (width =? 0); [reflexivity|]. replace (-1 * n_dim n <? 0) with true by lia. reflexivity.
Qed.
Print Assumptions C114_positions.

(* Without radii the check does not fail: the radius is then a coordinate of
   the last vector. *)
Theorem C114_radius_refuted n c v : n_vec n = ["X"%string] -> n_sca n = [] -> n_dim n = 2 -> length v = 2%nat ->
  do_checks 2 (find_places n c) = true /\ u_sigma (get_values n (find_places n c) v) = nth 1 v 0%Q.
Proof.
  intros E1 E2 E3 L. unfold find_places. rewrite E1, E2, E3. destruct v as [|a [|b [|]]]; try discriminate. split; reflexivity.
Qed.
Print Assumptions C114_radius_refuted.

(* The predefined options: the preferred data that is there. *)
Lemma choose_spec n c m name : (m = 1 \/ m = 2 \/ m = 3) ->
  (has n (m, name) /\ choose n c m name = (true, mkChoice m name (c_fun c) (c_update c))) \/
  (~ has n (m, name) /\ choose n c m name = (false, c)).
Proof.
  intros M. unfold has, choose. cbn [fst snd].
  set (l := if m =? 1 then _ else _).
  destruct (existsb (String.eqb name) l) eqn:E.
  - left. split; [|reflexivity]. apply existsb_exists in E. destruct E as (x & Hin & Ex). apply String.eqb_eq in Ex. subst x. exact Hin.
  - right. split; [|reflexivity]. intros Hin. assert (T : existsb (String.eqb name) l = true).
    { apply existsb_exists. exists name. split; [exact Hin|apply String.eqb_refl]. } congruence.
Qed.

Theorem C114_option_partial n opt c :
  let c' := set_option n opt c in
  (forall pre w post, wanted opt = pre ++ w :: post -> has n w -> (forall w', In w' pre -> ~ has n w') ->
     c_method c' = fst w /\ c_name c' = snd w) /\
  ((forall w, In w (wanted opt) -> ~ has n w) -> c_method c' = 0) /\
  (c_update c' = true <-> opt <> 5) /\
  (c_fun c = 0 -> c_fun c' = if opt =? 3 then 1 else if opt =? 5 then 2 else 0).
Proof.
  intros c'. subst c'. unfold set_option, predefined. cbn [c_method c_name c_fun c_update].
  change (0 =? 0) with true. cbn [negb]. set (c0 := mkChoice 0 (c_name c) (c_fun c) true).
  assert (ONE : forall m name, (m = 1 \/ m = 2 \/ m = 3) ->
    let c1 := snd (choose n c0 m name) in
    (forall pre w post, [(m, name)] = pre ++ w :: post -> has n w -> (forall w', In w' pre -> ~ has n w') ->
       c_method c1 = fst w /\ c_name c1 = snd w) /\
    ((forall w, In w [(m, name)] -> ~ has n w) -> c_method c1 = 0) /\ c_update c1 = true /\ c_fun c1 = c_fun c).
  { intros m name M c1. subst c1. destruct (choose_spec n c0 m name M) as [[H ->]|[H ->]]; cbn [snd c_method c_name c_update c_fun c0].
    - repeat split; try reflexivity.
      + destruct pre as [|? [|]]; cbn [app] in H0; [injection H0 as <- _; reflexivity|discriminate|discriminate].
      + destruct pre as [|? [|]]; cbn [app] in H0; [injection H0 as <- _; reflexivity|discriminate|discriminate].
      + intros N. exfalso. apply (N (m, name)); [left; reflexivity|exact H].
    - repeat split; try reflexivity;
      destruct pre as [|? [|]]; cbn [app] in H0; try discriminate; injection H0 as <- _; contradiction. }
  unfold wanted.
  destruct (Z.eqb_spec opt 0) as [E|N0].
  { subst opt. destruct (ONE 3 "Type"%string) as (A & B & C & D); [lia|]. rewrite C, D. cbn. repeat split; auto; try apply A with (1 := H); auto; lia. }
  destruct (Z.eqb_spec opt 2) as [E|N2].
  { subst opt. cbn [Z.eqb Pos.eqb].
    destruct (choose_spec n c0 2 "V-M" ltac:(lia)) as [[H ->]|[H ->]]; cbn [fst snd].
    - cbn [c_method c_name c_update c_fun c0]. repeat split; try lia; try auto.
      + destruct pre as [|a [|b [|]]]; cbn [app] in H0; try discriminate; injection H0; intros; subst; try reflexivity.
        exfalso. apply (H2 (2, "V-M"%string)); [left; reflexivity|exact H].
      + destruct pre as [|a [|b [|]]]; cbn [app] in H0; try discriminate; injection H0; intros; subst; try reflexivity.
        exfalso. apply (H2 (2, "V-M"%string)); [left; reflexivity|exact H].
      + intros N. exfalso. apply (N (2, "V-M"%string)); [left; reflexivity|exact H].
    - destruct (ONE 1 "V"%string) as (A & B & C & D); [lia|]. rewrite C, D. split; [|split; [|split; [split; [lia|reflexivity]|auto]]].
      + intros pre w post E Hw Np. destruct pre as [|a pre]; cbn [app] in E; injection E as <- E.
        * contradiction.
        * apply (A pre w post E Hw). intros w' Hin. apply Np. right. exact Hin.
      + intros N. apply B. intros w Hin. apply N. right. exact Hin. }
  destruct (Z.eqb_spec opt 3) as [E|N3].
  { subst opt. destruct (ONE 1 "V"%string) as (A & B & C & D); [lia|]. cbn [c_method c_name c_fun c_update]. rewrite C. split; [exact A|split; [exact B|]]. split; [split; [lia|reflexivity]|auto]. }
  destruct (Z.eqb_spec opt 4) as [E|N4].
  { subst opt. destruct (ONE 2 "Distance"%string) as (A & B & C & D); [lia|]. rewrite C, D. split; [exact A|split; [exact B|]]. split; [split; [lia|reflexivity]|auto]. }
  destruct (Z.eqb_spec opt 5) as [E|N5].
  { subst opt. destruct (ONE 2 "StripeX"%string) as (A & B & C & D); [lia|]. cbn [c_method c_name c_fun c_update]. split; [exact A|split; [exact B|]]. split; [split; [discriminate|lia]|auto]. }
  destruct (Z.eqb_spec opt 6) as [E|N6].
  { subst opt. destruct (ONE 3 "Proc"%string) as (A & B & C & D); [lia|]. rewrite C, D. split; [exact A|split; [exact B|]]. split; [split; [lia|reflexivity]|auto]. }
  destruct (Z.eqb_spec opt 7) as [E|N7].
  { subst opt. destruct (ONE 2 "Om"%string) as (A & B & C & D); [lia|]. rewrite C, D. split; [exact A|split; [exact B|]]. split; [split; [lia|reflexivity]|auto]. }
  destruct (Z.eqb_spec opt 8) as [E|N8].
  { subst opt. destruct (ONE 2 "F-M"%string) as (A & B & C & D); [lia|]. rewrite C, D. split; [exact A|split; [exact B|]]. split; [split; [lia|reflexivity]|auto]. }
  cbn [c_method c_name c_fun c_update c0]. split; [|split; [reflexivity|split; [split; [intros _; exact N5|reflexivity]|auto]]].
  intros pre w post E. destruct pre; discriminate.
Qed.
Print Assumptions C114_option_partial.

(* The way of colouring is not reset: after the stripes, the distances are
   coloured as stripes, too. *)
Theorem C114_stale_refuted : exists n c, c_fun c = 0 /\ c_fun (set_option n 4 c) = 0 /\
  c_fun (set_option n 4 (set_option n 5 c)) = 2.
Proof. exists names_example, (mkChoice 0 "" 0 true). repeat split. Qed.
Print Assumptions C114_stale_refuted.

(* ---- C115 *)
Lemma scalar_fold l : forall mn mx sum, (mn <= mx)%Q ->
  let '(a, b, t) := fold_left scalar_step l (mn, mx, sum) in
  (In a (mn :: l) /\ In b (mx :: l) /\ (a <= mn)%Q /\ (mx <= b)%Q /\ forall v, In v l -> (a <= v <= b)%Q) /\
  (t == sum + Qsum l)%Q.
Proof.
  induction l as [|v l IH]; intros mn mx sum L.
  - cbn. repeat split; try lra; auto; try (intros v []). all: intros; try contradiction.
  - cbn [fold_left scalar_step].
    set (mn' := if Qltb v mn then v else mn). set (mx' := if Qltb v mn then mx else if Qltb mx v then v else mx).
    assert (B : (mn' <= v <= mx' /\ mn' <= mn /\ mx <= mx' /\ mn' <= mx')%Q /\ In mn' [mn; v] /\ In mx' [mx; v]).
    { unfold mn', mx'. destruct (Qltb_spec v mn); [|destruct (Qltb_spec mx v)]; (split; [repeat split; lra|simpl; auto]). }
    destruct B as ((B1 & B2 & B3 & B4) & I1 & I2).
    specialize (IH mn' mx' (sum + v)%Q B4). destruct (fold_left scalar_step l _) as [[a b] t].
    destruct IH as [(A1 & A2 & A3 & A4 & A5) A6]. split.
    + repeat split; try lra.
      * destruct A1 as [A1|A1]; [rewrite <- A1; destruct I1 as [I1|[I1|[]]]; rewrite <- I1; simpl; auto|simpl; auto].
      * destruct A2 as [A2|A2]; [rewrite <- A2; destruct I2 as [I2|[I2|[]]]; rewrite <- I2; simpl; auto|simpl; auto].
      * destruct H as [<- |H]; [lra|apply A5; exact H].
      * destruct H as [<- |H]; [lra|apply A5; exact H].
    + rewrite A6. cbn [Qsum fold_right map]. unfold Qsum. cbn [fold_right]. lra.
Qed.

(* C115: the scales are the least and the largest value. *)
Theorem C115_scales_partial width v l : 0 < width ->
  exists mn mx av, scalar_scales width v l = (mn, mx, av) /\
  In mn (v :: l) /\ In mx (v :: l) /\ (forall a, In a (v :: l) -> (mn <= a <= mx)%Q) /\
  (l = [] -> (av == v)%Q).
Proof.
  intros W. unfold scalar_scales. cbv zeta.
  assert (A := scalar_fold (v :: l) v v 0%Q (Qle_refl _)).
  destruct (fold_left _ _ _) as [[a b] t]. destruct A as [(A1 & A2 & A3 & A4 & A5) A6].
  exists a, b. eexists. split; [reflexivity|].
  split; [destruct A1 as [<- |A1]; [left; reflexivity|exact A1]|].
  split; [destruct A2 as [<- |A2]; [left; reflexivity|exact A2]|]. split; [exact A5|].
  intros ->. replace (Z.quot width (width * (1 + Z.of_nat (@length Q [])))) with 1 by (symmetry; simpl length; rewrite Z.mul_1_r; apply Z.quot_same; lia).
  rewrite A6. unfold Qsum. cbn [fold_right]. change (inject_Z 1) with 1%Q. lra.
Qed.
Print Assumptions C115_scales_partial.

(* The averages are 0 as soon as there are two particles. *)
Theorem C115_average_refuted width v v' l : 0 < width ->
  (snd (scalar_scales width v (v' :: l)) == 0)%Q /\ (vector_average width (v :: v' :: l) == 0)%Q.
Proof.
  intros W. unfold scalar_scales, vector_average. cbv zeta. destruct (fold_left _ _ _) as [[a b] t]. cbn [snd].
  cbn [length].
  assert (Q1 : Z.quot width (width * (1 + Z.of_nat (Datatypes.S (length l)))) = 0) by (apply Z.quot_small; nia).
  assert (Q2 : Z.quot width (width * (Z.of_nat (Datatypes.S (Datatypes.S (length l))))) = 0) by (apply Z.quot_small; nia).
  rewrite Q1, Q2. change (inject_Z 0) with 0%Q. split; lra.
Qed.
Print Assumptions C115_average_refuted.

Lemma floor_bounds x (a b : Z) : (inject_Z a <= x)%Q -> (x <= inject_Z b)%Q -> a <= Qfloor x <= b.
Proof.
  intros A B. split.
  - rewrite <- (Qfloor_Z a). apply Qfloor_resp_le. exact A.
  - rewrite <- (Qfloor_Z b). apply Qfloor_resp_le. exact B.
Qed.

(* From blue (least) to red (largest). *)
Theorem C115_value_partial mn mx : (mn < mx)%Q ->
  value_color mn mx mn = Some (mkPx 200 0 0 0) /\ value_color mn mx mx = Some (mkPx 0 0 255 0) /\
  (forall s, (mn <= s <= mx)%Q -> exists c, value_color mn mx s = Some c /\ pg c = 0 /\
     (inject_Z (pr c) <= 255 * ((s - mn) / (mx - mn)) < inject_Z (pr c) + 1)%Q /\
     (inject_Z (pb c) - 1 < 200 * ((mx - s) / (mx - mn)) <= inject_Z (pb c))%Q) /\
  (forall s s' c c', (mn <= s)%Q -> (s <= s')%Q -> (s' <= mx)%Q ->
     value_color mn mx s = Some c -> value_color mn mx s' = Some c' -> pr c <= pr c' /\ pb c' <= pb c).
Proof.
  intros L. set (w := (mx - mn)%Q). assert (W : (0 < w)%Q) by (unfold w; lra).
  assert (NE : Qeq_bool mn mx = false).
  { destruct (Qeq_bool mn mx) eqn:E; [|reflexivity]. apply Qeq_bool_eq in E. lra. }
  assert (V : forall s, (mn <= s <= mx)%Q -> let v := ((s - mn) / w)%Q in
     (0 <= v <= 1)%Q /\ value_color mn mx s = Some (mkPx (Qceiling (200 * (1 - v))) 0 (Qfloor (255 * v)) 0)).
  { intros s H v. assert (B : (0 <= v <= 1)%Q).
    { unfold v. split; [apply Qle_shift_div_l; [exact W|lra]|apply Qle_shift_div_r; [exact W|unfold w; lra]]. }
    split; [exact B|]. unfold value_color. rewrite NE. fold w. fold v. cbv zeta.
    assert (R := floor_bounds (255 * v) 0 255 ltac:(change (inject_Z 0) with 0%Q; lra) ltac:(change (inject_Z 255) with 255%Q; lra)).
    assert (U := floor_bounds (- (200 * (1 - v))) (-200) 0 ltac:(change (inject_Z (-200)) with (-200)%Q; lra) ltac:(change (inject_Z 0) with 0%Q; lra)).
    unfold Qceiling. rewrite !Z.mod_small by lia. reflexivity. }
  assert (Ecomp : forall x y, (x == y)%Q -> Qceiling x = Qceiling y) by (intros; apply Qceiling_comp; assumption).
  split; [|split; [|split]].
  - destruct (V mn) as [_ ->]; [lra|]. f_equal.
    assert (E : ((mn - mn) / w == 0)%Q) by (field; lra).
    rewrite (Ecomp (200 * (1 - (mn - mn) / w))%Q 200%Q) by (rewrite E; reflexivity).
    rewrite (Qfloor_comp (255 * ((mn - mn) / w)) 0) by (rewrite E; reflexivity). reflexivity.
  - destruct (V mx) as [_ ->]; [lra|]. f_equal.
    assert (E : ((mx - mn) / w == 1)%Q) by (unfold w; field; lra).
    rewrite (Ecomp (200 * (1 - (mx - mn) / w))%Q 0%Q) by (rewrite E; reflexivity).
    rewrite (Qfloor_comp (255 * ((mx - mn) / w)) 255) by (rewrite E; reflexivity). reflexivity.
  - intros s H. destruct (V s H) as [_ ->]. eexists. split; [reflexivity|]. cbn [pg pr pb]. split; [reflexivity|].
    split.
    + split; [apply Qfloor_le|]. assert (X := Qlt_floor (255 * ((s - mn) / w))). rewrite inject_Z_plus in X. exact X.
    + assert (E : (200 * ((mx - s) / w) == 200 * (1 - (s - mn) / w))%Q) by (unfold w; field; lra). rewrite E.
      split; [|apply Qle_ceiling]. assert (X := Qceiling_lt (200 * (1 - (s - mn) / w))).
      unfold Z.sub in X. rewrite inject_Z_plus in X. exact X.
  - intros s s' c c' H1 H2 H3. destruct (V s ltac:(lra)) as [_ ->]. destruct (V s' ltac:(lra)) as [_ ->].
    intros X Y. apply some_inj in X, Y. subst c c'. cbn [pr pb].
    assert (M : ((s - mn) / w <= (s' - mn) / w)%Q).
    { apply Qmult_le_compat_r; [lra|]. apply Qlt_le_weak, Qinv_lt_0_compat. exact W. }
    split; [apply Qfloor_resp_le; lra|apply Qceiling_resp_le; lra].
Qed.
Print Assumptions C115_value_partial.
Example C115_value_case : map (value_color 0 10) [0; 5; 10]%Q = [Some (mkPx 200 0 0 0); Some (mkPx 100 0 127 0); Some (mkPx 0 0 255 0)].
Proof. reflexivity. Qed.

(* All values equal: no colour (0/0). *)
Theorem C115_equal_refuted v l width : (forall a, In a l -> (a == v)%Q) ->
  let '(mn, mx, _) := scalar_scales width v l in value_color mn mx v = None.
Proof.
  intros H. unfold scalar_scales. cbv zeta. assert (A := scalar_fold (v :: l) v v 0%Q (Qle_refl _)).
  destruct (fold_left _ _ _) as [[a b] t]. destruct A as [(A1 & A2 & _) _].
  assert (T : forall x, In x (v :: v :: l) -> (x == v)%Q) by (intros x [<- |[<- |Hx]]; [reflexivity|reflexivity|auto]).
  unfold value_color. replace (Qeq_bool a b) with true; [reflexivity|]. symmetry. apply Qeq_bool_iff. rewrite (T _ A1), (T _ A2). reflexivity.
Qed.
Print Assumptions C115_equal_refuted.

(* Colours by type or processor: equal numbers have equal colours (a
   function), different numbers below the number of colours different ones. *)
Theorem C115_bank bank c : 0 <= c -> Z.of_nat (length bank) <= 2 ^ 31 -> c < Z.of_nat (length bank) ->
  nth_error bank (Z.to_nat c) = Some (get_bank bank c).
Proof.
  intros C B L. unfold get_bank. rewrite (Z.mod_small c) by lia. rewrite (Z.mod_small c) by lia.
  apply nth_error_nth'. lia.
Qed.
Print Assumptions C115_bank.

Theorem C115_bank_all bank c : bank <> [] -> In (get_bank bank c) bank.
Proof.
  intros N. unfold get_bank. apply nth_In. destruct bank as [|a bank]; [congruence|].
  assert (0 <= (c mod 2 ^ 64) mod Z.of_nat (length (a :: bank)) < Z.of_nat (length (a :: bank))) by (apply Z.mod_pos_bound; simpl length; lia). lia.
Qed.
Print Assumptions C115_bank_all.

(* Stripes: the range of values in equal parts, one for each colour. *)
Theorem C115_stripes mn mx s bank : (mn < mx)%Q -> bank <> [] -> Z.of_nat (length bank) <= 2 ^ 31 ->
  let n := inject_Z (Z.of_nat (length bank)) in
  exists k c, nth_error bank k = Some c /\ stripe_color mn mx s bank = Some c /\
  ((mn <= s < mx)%Q -> (mn + inject_Z (Z.of_nat k) * (mx - mn) / n <= s < mn + (inject_Z (Z.of_nat k) + 1) * (mx - mn) / n)%Q) /\
  ((s < mn)%Q -> k = 0%nat) /\ ((mx <= s)%Q -> Datatypes.S k = length bank).
Proof.
  intros L NB B n. unfold stripe_color.
  destruct (Qeq_bool mn mx) eqn:E; [apply Qeq_bool_eq in E; lra|]. clear E. cbv zeta.
  assert (LB : 0 < Z.of_nat (length bank)) by (destruct bank; [congruence|simpl length; lia]).
  assert (N0 : (0 < n)%Q) by (unfold n; apply inject_pos; exact LB).
  fold n. set (w := (mx - mn)%Q). assert (W : (0 < w)%Q) by (unfold w; lra).
  set (v := ((s - mn) / w * n)%Q). set (sz := Z.of_nat (length bank)) in *.
  assert (SV : (s == mn + v * w / n)%Q) by (unfold v; field; lra).
  set (k := if Qtrunc v <? 0 then 0 else if sz <=? Qtrunc v then sz - 1 else Qtrunc v).
  assert (K : 0 <= k < sz) by (unfold k; destruct (Qtrunc v <? 0) eqn:E1, (sz <=? Qtrunc v) eqn:E2; lia).
  exists (Z.to_nat k), (get_bank bank k). split; [apply C115_bank; lia|]. split; [reflexivity|].
  assert (KQ : inject_Z (Z.of_nat (Z.to_nat k)) = inject_Z k) by (rewrite Z2Nat.id by lia; reflexivity). rewrite KQ.
  assert (WN : (0 < w / n)%Q) by (apply Qlt_shift_div_l; lra).
  assert (MX : (mx == mn + n * w / n)%Q) by (unfold w; field; lra).
  assert (G : forall x, (x * w / n == x * (w / n))%Q) by (intros; field; lra).
  split; [|split].
  - intros [S1 S2]. assert (V0 : (0 <= v)%Q).
    { destruct (Qlt_le_dec v 0) as [C|C]; [|exact C]. exfalso. rewrite SV, G in S1. nra. }
    assert (V1 : (v < n)%Q).
    { destruct (Qlt_le_dec v n) as [C|C]; [exact C|]. exfalso. rewrite SV, MX, !G in S2. nra. }
    assert (KT : k = Qfloor v).
    { unfold k. rewrite trunc_nonneg by exact V0. assert (0 <= Qfloor v) by (apply floor_nonneg; exact V0).
      assert (Qfloor v < sz).
      { assert (X := Qfloor_le v). assert (Y : (inject_Z (Qfloor v) < inject_Z sz)%Q) by (fold n; lra). rewrite <- Zlt_Qlt in Y. exact Y. }
      replace (Qfloor v <? 0) with false by lia. replace (sz <=? Qfloor v) with false by lia. reflexivity. }
    rewrite KT, SV, !G. assert (X := Qfloor_le v). assert (Y := Qlt_floor v). rewrite inject_Z_plus in Y.
    change (inject_Z 1) with 1%Q in Y. split; nra.
  - intros S1. assert (V0 : (v < 0)%Q).
    { destruct (Qlt_le_dec v 0) as [C|C]; [exact C|]. exfalso. rewrite SV, G in S1. nra. }
    assert (T : Qtrunc v <= 0) by (rewrite Qtrunc_neg by exact V0; change 0 with (Qceiling 0); apply Qceiling_resp_le; lra).
    unfold k. destruct (Qtrunc v <? 0) eqn:E1; [reflexivity|]. replace (Qtrunc v) with 0 by lia. replace (sz <=? 0) with false by lia. reflexivity.
  - intros S1. assert (V0 : (n <= v)%Q).
    { destruct (Qlt_le_dec v n) as [C|C]; [|exact C]. exfalso. rewrite SV, MX, !G in S1. nra. }
    assert (T : sz <= Qtrunc v).
    { rewrite trunc_nonneg by lra. rewrite <- (Qfloor_Z sz). apply Qfloor_resp_le. exact V0. }
    unfold k. replace (Qtrunc v <? 0) with false by lia. replace (sz <=? Qtrunc v) with true by lia. lia.
Qed.
Print Assumptions C115_stripes.
Example C115_stripes_case : map (fun s => stripe_color 0 10 s [mkPx 1 0 0 0; mkPx 2 0 0 0; mkPx 3 0 0 0]) [-5; 0; 4; 7; 10; 20]%Q
  = map (fun b => Some (mkPx b 0 0 0)) [1; 1; 2; 3; 3; 3].
Proof. reflexivity. Qed.
