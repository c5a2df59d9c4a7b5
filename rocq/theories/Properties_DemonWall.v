(* C125: the demon's wall. *)
From Coq Require Import Reals List Bool Arith ZArith Lia Lra.
From Verif Require Import Model_Forces Spec_Forces Model_GroupMeasure Proofs_GroupMeasure Model_DemonWall Spec_DemonWall.
Import ListNotations.
Local Open Scope R_scope.

Lemma corr_neg bc W x y d : 0 <= W d -> y d = - x d -> correction bc W y d = - correction bc W x d.
Proof.
  intros HW E. unfold correction. rewrite E, Rabs_Ropp. destruct (bc d); [|reflexivity].
  destruct (Rlt_dec (W d - Rabs (x d)) (Rabs (x d))) as [L|L]; [|reflexivity].
  destruct (Rlt_dec 0 (- x d)) as [A|A], (Rlt_dec 0 (x d)) as [B|B]; try ring; try lra.
  exfalso. assert (x d = 0) by lra. rewrite H, Rabs_R0 in L. lra.
Qed.
Definition box_ok (w : world) : Prop := forall d, 0 <= w_width w d.
Lemma disp_sym w i j d : box_ok w -> wall_disp w j i d = - wall_disp w i j d.
Proof. intros H. unfold wall_disp. apply corr_neg; [apply H|]. unfold vsub. ring. Qed.
Lemma dist_sym w i j : box_ok w -> wall_dist w j i = wall_dist w i j.
Proof. intros H. unfold wall_dist. rewrite !(disp_sym w i j) by exact H. f_equal. ring. Qed.
Lemma force_sym wd w a d i j : box_ok w -> wall_force wd w a d (j, i) = wall_force wd w a d (i, j).
Proof.
  intros H. unfold wall_force. rewrite (dist_sym w i j H), (disp_sym w i j d H), (Rplus_comm (w_sg w j)).
  destruct (wd_type wd i <? 0)%Z, (wd_type wd j <? 0)%Z; try reflexivity. destruct (Rlt_dec _ _); [|reflexivity]. destruct (Rlt_dec _ _); [|reflexivity].
  destruct (a =? i)%nat, (a =? j)%nat; unfold Rdiv; ring.
Qed.
Lemma force_other wd w f a d p : wall_force wd (with_f f w) a d p = wall_force wd w a d p.
Proof. destruct p as [i j]. reflexivity. Qed.
Lemma near_rsqr w i j : 0 <= w_sg w i -> 0 <= w_sg w j ->
  let X := wall_disp w i j in let q := X 0%nat * X 0%nat + X 1%nat * X 1%nat in
  (0 < q <-> 0 < wall_dist w i j) /\ (q < (w_sg w i + w_sg w j) * (w_sg w i + w_sg w j) <-> wall_dist w i j < w_sg w i + w_sg w j).
Proof.
  intros A B X q. assert (Q0 : 0 <= q) by (unfold q; nra). unfold wall_dist. fold X. fold q. pose proof (sqrt_pos q) as P. pose proof (sqrt_sqrt q Q0) as SQ. split; split; intros H.
  - apply sqrt_lt_R0. exact H.
  - nra.
  - destruct (Rlt_dec (sqrt q) (w_sg w i + w_sg w j)) as [L|L]; [exact L|]. exfalso. nra.
  - nra.
Qed.

Lemma off_pair free wd p w rs m : w_dims w = 2%nat -> box_ok w -> (forall i, 0 <= w_sg w i) ->
  exists f, wall_pair free wd false p (w, rs, m) = Some (with_f f w, rs, m) /\
    forall a d, f a d = w_f w a d + (if (d <? 2)%nat then wall_force wd w a d p else 0).
Proof.
  intros HD HB HS. destruct p as [a0 b0]. unfold wall_pair.
  assert (WF : with_f (w_f w) w = w) by (now destruct w).
  destruct ((wd_type wd a0 <? 0) || (wd_type wd b0 <? 0))%Z eqn:ET.
  { exists (w_f w). split; [now rewrite WF|]. intros a d. unfold wall_force. apply orb_prop in ET as [-> | ET]; [destruct (d <? 2)%nat; ring|]. rewrite ET.
    destruct (wd_type wd a0 <? 0)%Z, (d <? 2)%nat; ring. }
  apply orb_false_elim in ET as [T1 T2].
  assert (G : forall i j, (wd_type wd i <? 0)%Z = false -> (wd_type wd j <? 0)%Z = false -> exists f,
     (let X := correction (w_bc w) (w_width w) (vsub (w_x w i) (w_x w j)) in
      let rsqr := X 0%nat * X 0%nat + X 1%nat * X 1%nat in
      if Rlt_dec 0 rsqr then if Rlt_dec rsqr ((w_sg w i + w_sg w j) * (w_sg w i + w_sg w j)) then
        let r := sqrt rsqr in let n := vscale (1 / r) X in let mg := wd_rep wd * (w_sg w i + w_sg w j - r) in
        Some (with_f (add_scaled 2 j n (- mg) (add_scaled 2 i n mg (w_f w))) w, rs, m)
      else Some (w, rs, m) else Some (w, rs, m)) = Some (with_f f w, rs, m) /\
     forall a d, f a d = w_f w a d + (if (d <? 2)%nat then wall_force wd w a d (i, j) else 0)).
  { clear T1 T2. intros i j T1 T2. cbv zeta. destruct (near_rsqr w i j (HS i) (HS j)) as [N1 N2]. unfold wall_force. rewrite T1, T2.
    change (correction (w_bc w) (w_width w) (vsub (w_x w i) (w_x w j))) with (wall_disp w i j) in *.
    destruct (Rlt_dec 0 _) as [L1|L1].
    2:{ exists (w_f w). split; [now rewrite WF|]. intros a d. destruct (Rlt_dec 0 (wall_dist w i j)) as [C|C]; [now apply N1 in C|]. destruct (d <? 2)%nat; ring. }
    apply N1 in L1. destruct (Rlt_dec 0 (wall_dist w i j)) as [_|C]; [|contradiction].
    destruct (Rlt_dec _ _) as [L2|L2].
    2:{ exists (w_f w). split; [now rewrite WF|]. intros a d. destruct (Rlt_dec (wall_dist w i j) _) as [C|C]; [now apply N2 in C|]. destruct (d <? 2)%nat; ring. }
    apply N2 in L2. destruct (Rlt_dec (wall_dist w i j) _) as [_|C]; [|contradiction].
    eexists. split; [reflexivity|]. intros a d. unfold add_scaled, vscale. fold (wall_dist w i j).
    destruct (d <? 2)%nat; rewrite ?andb_false_r, ?andb_true_r; [|ring]. destruct (a =? i)%nat, (a =? j)%nat; unfold Rdiv. all: try ring. }
  destruct (wd_type wd b0 <? wd_type wd a0)%Z.
  - destruct (G b0 a0 T2 T1) as (f & E & H). exists f. split; [exact E|]. intros a d. rewrite H. now rewrite (force_sym wd w a d a0 b0).
  - exact (G a0 b0 T1 T2).
Qed.
Lemma off_loop free wd l rs m : forall w, w_dims w = 2%nat -> box_ok w -> (forall i, 0 <= w_sg w i) ->
  exists f, wall_loop free wd false l (w, rs, m) = Some (with_f f w, rs, m) /\
    forall a d, f a d = w_f w a d + (if (d <? 2)%nat then sum_over (wall_force wd w a d) l else 0).
Proof.
  induction l as [|p l IH]; intros w HD HB HS; cbn [wall_loop].
  - exists (w_f w). split; [now destruct w|]. intros a d. change (sum_over (wall_force wd w a d) []) with 0. destruct (d <? 2)%nat; ring.
  - destruct (off_pair free wd p w rs m HD HB HS) as (f & E & H). rewrite E. destruct (IH (with_f f w) HD HB HS) as (f' & E' & H'). exists f'. split; [exact E'|].
    intros a d. rewrite H'. cbn [with_f w_f]. rewrite H, so_cons. destruct (d <? 2)%nat; [|ring].
    rewrite (so_ext (wall_force wd (with_f f w) a d) (wall_force wd w a d)) by (intros; apply force_other). ring.
Qed.

(* Usually each listed pair that overlaps is pushed apart, with a force proportional to the overlap, whichever of the two is the wall; positions,
   velocities and the flag stay. *)
Theorem C125_forces : forall free wd l0 l1 l2 w rs, w_dims w = 2%nat -> (forall d, 0 <= w_width w d) -> (forall i, 0 <= w_sg w i) ->
  exists f, interact free wd false l0 l1 l2 w rs = Some ((with_f f w, rs, []), false, false) /\
    forall a d, (d < 2)%nat -> f a d = w_f w a d + sum_over (wall_force wd w a d) l0.
Proof.
  intros free wd l0 l1 l2 w rs HD HB HS. unfold interact. rewrite HD. cbn [Nat.eqb negb]. destruct (off_loop free wd l0 rs [] w HD HB HS) as (f & E & H). rewrite E.
  exists f. split; [reflexivity|]. intros a d Hd. rewrite H. apply Nat.ltb_lt in Hd. now rewrite Hd.
Qed.
Print Assumptions C125_forces.

Lemma sum_pick n g k : (k < n)%nat -> sum_to n (fun a => if (a =? k)%nat then g else 0) = g.
Proof.
  induction n as [|n IH]; intros H; [lia|]. cbn [sum_to]. destruct (Nat.eqb_spec n k) as [->|N].
  - assert (Z : forall m, (m <= k)%nat -> sum_to m (fun a => if (a =? k)%nat then g else 0) = 0).
    { induction m as [|m IHm]; intros Hm; [reflexivity|]. cbn [sum_to]. rewrite IHm by lia. destruct (Nat.eqb_spec m k); [lia|ring]. }
    rewrite Z by lia. ring.
  - rewrite IH by lia. ring.
Qed.
Lemma sum_to_plus n f g : sum_to n (fun a => f a + g a) = sum_to n f + sum_to n g.
Proof. induction n as [|n IH]; cbn; [ring|]. rewrite IH. ring. Qed.
Lemma sum_to_minus n f g : sum_to n (fun a => f a - g a) = sum_to n f - sum_to n g.
Proof. induction n as [|n IH]; cbn; [ring|]. rewrite IH. ring. Qed.
Lemma sum_to_ext n f g : (forall a, f a = g a) -> sum_to n f = sum_to n g.
Proof. intros H. induction n as [|n IH]; cbn; [reflexivity|]. now rewrite IH, H. Qed.
Lemma sum_to_0 n : sum_to n (fun _ => 0) = 0.
Proof. induction n as [|n IH]; cbn; [reflexivity|]. rewrite IH. ring. Qed.
Lemma force_total wd w d n i j : (i < n)%nat -> (j < n)%nat -> sum_to n (fun a => wall_force wd w a d (i, j)) = 0.
Proof.
  intros Hi Hj. unfold wall_force. destruct (wd_type wd i <? 0)%Z; [apply sum_to_0|]. destruct (wd_type wd j <? 0)%Z; [apply sum_to_0|].
  destruct (Rlt_dec _ _); [|apply sum_to_0]. destruct (Rlt_dec _ _); [|apply sum_to_0]. cbv zeta. rewrite sum_to_minus, !sum_pick by assumption. ring.
Qed.
(* The total force does not change. *)
Theorem C125_third_law : forall free wd l0 l1 l2 w rs w' rs' m b t n d, w_dims w = 2%nat -> (forall d, 0 <= w_width w d) -> (forall i, 0 <= w_sg w i) ->
  (forall p, In p l0 -> (fst p < n)%nat /\ (snd p < n)%nat) -> (d < 2)%nat ->
  interact free wd false l0 l1 l2 w rs = Some ((w', rs', m), b, t) -> total n d (w_f w') = total n d (w_f w).
Proof.
  intros free wd l0 l1 l2 w rs w' rs' m b t n d HD HB HS HN Hd E. destruct (C125_forces free wd l0 l1 l2 w rs HD HB HS) as (f & E' & H). rewrite E in E'. injection E' as -> _ _ _ _. unfold total.
  cbn [with_f w_f]. rewrite (sum_to_ext n _ (fun a => w_f w a d + sum_over (wall_force wd w a d) l0)) by (intros a; apply H; exact Hd).
  rewrite sum_to_plus. assert (Z : sum_to n (fun a => sum_over (wall_force wd w a d) l0) = 0); [|rewrite Z; ring]. clear E H.
  induction l0 as [|[i j] l IH]; [apply sum_to_0|].
  rewrite (sum_to_ext n _ (fun a => wall_force wd w a d (i, j) + sum_over (wall_force wd w a d) l)) by (intros a; apply so_cons).
  rewrite sum_to_plus, IH by (intros p Hp; apply HN; now right). destruct (HN (i, j) (or_introl eq_refl)) as [A B]. rewrite (force_total wd w d n i j A B). ring.
Qed.
Print Assumptions C125_third_law.

(* ---- turning on *)
Lemma draw_half free from w rs X rs' : draw_place free from w rs = Some (X, rs') -> ok_random rs ->
  ok_random rs' /\ free w X = true /\ (exists a b, 0 <= a < 1 /\ 0 <= b < 1 /\ X 0%nat = w_lo w 0%nat + from * w_width w 0%nat + a * (45 / 100) * w_width w 0%nat /\ X 1%nat = w_lo w 1%nat + b * w_width w 1%nat).
Proof.
  revert X rs'. assert (G : forall n rs X rs', (length rs <= n)%nat -> draw_place free from w rs = Some (X, rs') -> ok_random rs ->
    ok_random rs' /\ free w X = true /\ (exists a b, 0 <= a < 1 /\ 0 <= b < 1 /\ X 0%nat = w_lo w 0%nat + from * w_width w 0%nat + a * (45 / 100) * w_width w 0%nat /\ X 1%nat = w_lo w 1%nat + b * w_width w 1%nat)).
  { clear rs. induction n as [|n IH]; intros rs X rs' L E O; (destruct rs as [|a [|b rest]]; [discriminate E|discriminate E|]); cbn [length] in L; [lia|].
    cbn [draw_place] in E. destruct (free w _) eqn:F.
    - injection E as <- <-. split; [intros r Hr; apply O; now right; right|]. split; [exact F|]. exists a, b. split; [apply O; now left|]. split; [apply O; right; now left|]. split; reflexivity.
    - apply (IH rest); [lia|exact E|]. intros r Hr. apply O. now right; right. }
  intros X rs'. apply (G (length rs)). lia.
Qed.
Record kept (w w' : world) : Prop := mkKept { k_dims : w_dims w' = w_dims w; k_f : w_f w' = w_f w; k_im : w_im w' = w_im w; k_sg : w_sg w' = w_sg w; k_lo : w_lo w' = w_lo w; k_hi : w_hi w' = w_hi w; k_bc : w_bc w' = w_bc w }.
Lemma kept_refl w : kept w w. Proof. now split. Qed.
Lemma kept_trans a b c : kept a b -> kept b c -> kept a c.
Proof. intros A B. destruct A, B. split; congruence. Qed.
Lemma kept_width w w' : kept w w' -> w_width w' = w_width w.
Proof. intros K. unfold w_width. now rewrite (k_lo _ _ K), (k_hi _ _ K). Qed.

(* what one pair does when the wall is being turned on: nothing, or its particle is moved *)
Lemma on_pair free wd side p w rs m st : wd_side wd = Some side -> ok_random rs -> (forall d, 0 <= w_width w d) -> (forall i, 0 <= w_sg w i) ->
  wall_pair free wd true p (w, rs, m) = Some st ->
  (st = (w, rs, m) /\ forall i j, of_pair wd i p -> (p = (i, j) \/ p = (j, i)) -> 0 < w_im w i -> (side i = 0 \/ side i = 1)%Z -> ~ overlap wd w i j) \/
  (exists i X rs', of_pair wd i p /\ st = (move_to i X w, rs', m ++ [i]) /\ ok_random rs' /\ 0 < w_im w i /\ (side i = 0 \/ side i = 1)%Z /\ free w X = true /\ in_half w (side i) X /\ (0 <= wd_type wd i)%Z).
Proof.
  intros SD O HW HS. destruct p as [a0 b0]. unfold wall_pair.
  destruct ((wd_type wd a0 <? 0) || (wd_type wd b0 <? 0))%Z eqn:ET.
  { intros E. injection E as <-. left. split; [reflexivity|]. intros i j _ P _ _ (A & B & _). apply orb_prop in ET.
    assert (A' := proj2 (Z.ltb_ge (wd_type wd i) 0) A). assert (B' := proj2 (Z.ltb_ge (wd_type wd j) 0) B). destruct P as [P|P]; injection P as -> ->; destruct ET as [ET|ET]; congruence. }
  apply orb_false_elim in ET as [T1 T2].
  assert (G : forall i j, of_pair wd i (a0, b0) -> (a0, b0) = (i, j) \/ (a0, b0) = (j, i) -> (0 <= wd_type wd i)%Z ->
     (forall i' j', of_pair wd i' (a0, b0) -> ((a0, b0) = (i', j') \/ (a0, b0) = (j', i')) -> i' = i /\ j' = j) ->
     (let X := correction (w_bc w) (w_width w) (vsub (w_x w i) (w_x w j)) in
      let rsqr := X 0%nat * X 0%nat + X 1%nat * X 1%nat in
      if Rlt_dec 0 rsqr then if Rlt_dec rsqr ((w_sg w i + w_sg w j) * (w_sg w i + w_sg w j)) then
        match wd_side wd with
        | None => None
        | Some side =>
            if Rlt_dec 0 (w_im w i) then
              if (side i =? 0)%Z then option_map (fun r => (move_to i (fst r) w, snd r, m ++ [i])) (draw_place free (25 / 1000) w rs)
              else if (side i =? 1)%Z then option_map (fun r => (move_to i (fst r) w, snd r, m ++ [i])) (draw_place free (525 / 1000) w rs)
              else Some (w, rs, m)
            else Some (w, rs, m)
        end
      else Some (w, rs, m) else Some (w, rs, m)) = Some st ->
  (st = (w, rs, m) /\ forall i j, of_pair wd i (a0, b0) -> ((a0, b0) = (i, j) \/ (a0, b0) = (j, i)) -> 0 < w_im w i -> (side i = 0 \/ side i = 1)%Z -> ~ overlap wd w i j) \/
  (exists i X rs', of_pair wd i (a0, b0) /\ st = (move_to i X w, rs', m ++ [i]) /\ ok_random rs' /\ 0 < w_im w i /\ (side i = 0 \/ side i = 1)%Z /\ free w X = true /\ in_half w (side i) X /\ (0 <= wd_type wd i)%Z)).
  { intros i j OP PI TI UN. cbv zeta. destruct (near_rsqr w i j (HS i) (HS j)) as [N1 N2].
    change (correction (w_bc w) (w_width w) (vsub (w_x w i) (w_x w j))) with (wall_disp w i j) in *.
    destruct (Rlt_dec 0 _) as [L1|L1].
    2:{ intros E. injection E as <-. left. split; [reflexivity|]. intros i' j' OP' P' _ _ (_ & _ & C & _). destruct (UN i' j' OP' P') as [-> ->]. now apply N1 in C. }
    destruct (Rlt_dec _ (_ * _)) as [L2|L2].
    2:{ intros E. injection E as <-. left. split; [reflexivity|]. intros i' j' OP' P' _ _ (_ & _ & _ & C). destruct (UN i' j' OP' P') as [-> ->]. now apply N2 in C. }
    rewrite SD. destruct (Rlt_dec 0 (w_im w i)) as [M|M].
    2:{ intros E. injection E as <-. left. split; [reflexivity|]. intros i' j' OP' P' C _ _. destruct (UN i' j' OP' P') as [-> ->]. contradiction. }
    assert (HX : 0 <= w_width w 0%nat) by apply HW. assert (HY : 0 <= w_width w 1%nat) by apply HW.
    destruct (Z.eqb_spec (side i) 0) as [S0|S0]; [|destruct (Z.eqb_spec (side i) 1) as [S1|S1]].
    - destruct (draw_place free _ w rs) as [[X rs']|] eqn:DP; [|discriminate]. cbn [option_map fst snd]. intros E. injection E as <-. right. exists i, X, rs'.
      destruct (draw_half _ _ _ _ _ _ DP O) as (O' & F & a & b & Ha & Hb & X0 & X1). split; [exact OP|]. split; [reflexivity|]. split; [exact O'|]. split; [exact M|]. split; [now left|]. split; [exact F|]. split; [|exact TI].
      unfold in_half. rewrite S0, X0, X1. unfold w_width in *. split; split; nra.
    - destruct (draw_place free _ w rs) as [[X rs']|] eqn:DP; [|discriminate]. cbn [option_map fst snd]. intros E. injection E as <-. right. exists i, X, rs'.
      destruct (draw_half _ _ _ _ _ _ DP O) as (O' & F & a & b & Ha & Hb & X0 & X1). split; [exact OP|]. split; [reflexivity|]. split; [exact O'|]. split; [exact M|]. split; [now right|]. split; [exact F|]. split; [|exact TI].
      unfold in_half. rewrite S1, X0, X1. unfold w_width in *. split; split; nra.
    - intros E. injection E as <-. left. split; [reflexivity|]. intros i' j' OP' P' _ C _. destruct (UN i' j' OP' P') as [-> ->]. lia. }
  apply Z.ltb_ge in T1, T2. destruct (Z.ltb_spec (wd_type wd b0) (wd_type wd a0)) as [LT|LT].
  - apply G; [right; split; [reflexivity|exact LT]|now right|exact T2|]. intros i' j' [[A B]|[A B]] [P|P]; cbn in A, B; injection P as P1 P2; subst; auto; try lia. 
  - apply G; [left; split; [reflexivity|exact LT]|now left|exact T1|]. intros i' j' [[A B]|[A B]] [P|P]; cbn in A, B; injection P as P1 P2; subst; auto; try lia.
Qed.

Lemma move_kept i X w : kept w (move_to i X w). Proof. now split. Qed.
Lemma half_kept w w' sd X : kept w w' -> in_half w' sd X -> in_half w sd X.
Proof. intros K. unfold in_half. rewrite (kept_width _ _ K), (k_lo _ _ K), (k_hi _ _ K). auto. Qed.
Lemma dist_ext w w' i j : kept w w' -> w_x w' i = w_x w i -> w_x w' j = w_x w j -> wall_dist w' i j = wall_dist w i j.
Proof. intros K A B. unfold wall_dist, wall_disp. now rewrite (k_bc _ _ K), (kept_width _ _ K), A, B. Qed.

Lemma on_loop free wd side w0 m0 : wd_side wd = Some side -> (forall d, 0 <= w_width w0 d) -> (forall i, 0 <= w_sg w0 i) ->
  forall l w rs m w' rs' m', kept w0 w -> ok_random rs -> wall_loop free wd true l (w, rs, m0 ++ m) = Some (w', rs', m') ->
  exists m1, m' = m0 ++ m ++ m1 /\ kept w0 w' /\
    (forall i, In i m1 -> (exists p, In p l /\ of_pair wd i p) /\ 0 < w_im w0 i /\ (side i = 0 \/ side i = 1)%Z /\ in_half w0 (side i) (w_x w' i) /\ (0 <= wd_type wd i)%Z /\
       (w_v w' i 0%nat = w_v w i 0%nat \/ w_v w' i 0%nat = - w_v w i 0%nat) /\ (forall d, d <> 0%nat -> w_v w' i d = w_v w i d) /\ (forall d, (2 <= d)%nat -> w_x w' i d = w_x w i d)) /\
    (forall i, ~ In i m1 -> w_x w' i = w_x w i /\ w_v w' i = w_v w i).
Proof.
  intros SD HW HS. induction l as [|p l IH]; intros w rs m w' rs' m' K O E; cbn [wall_loop] in E.
  - injection E as <- <- <-. exists []. rewrite app_nil_r. split; [reflexivity|]. split; [exact K|]. split; [intros i []|auto].
  - destruct (wall_pair free wd true p (w, rs, m0 ++ m)) as [st|] eqn:EP; [|discriminate].
    destruct (on_pair free wd side p w rs (m0 ++ m) st SD O ltac:(now rewrite (kept_width _ _ K)) ltac:(now rewrite (k_sg _ _ K)) EP) as [[-> _]|(i & X & rs1 & OP & -> & O1 & IM & SI & FR & HH & TI)].
    + destruct (IH w rs m w' rs' m' K O E) as (m1 & M & K' & A & B). exists m1. split; [exact M|]. split; [exact K'|]. split; [|exact B].
      intros k Hk. destruct (A k Hk) as ((q & Hq & OQ) & R). split; [exists q; split; [now right|exact OQ]|exact R].
    + rewrite <- app_assoc in E. destruct (IH (move_to i X w) rs1 (m ++ [i]) w' rs' m' (kept_trans _ _ _ K (move_kept i X w)) O1 E) as (m1 & M & K' & A & B).
      exists (i :: m1). split; [rewrite M, <- app_assoc; reflexivity|]. split; [exact K'|].
      assert (HX : forall k, k <> i -> w_x (move_to i X w) k = w_x w k /\ w_v (move_to i X w) k = w_v w k).
      { intros k N. apply Nat.eqb_neq in N. unfold move_to. cbn [w_x w_v]. rewrite N. cbn [andb]. split; reflexivity. }
      assert (VI : (w_v (move_to i X w) i 0%nat = - w_v w i 0%nat) /\ (forall d, d <> 0%nat -> w_v (move_to i X w) i d = w_v w i d) /\ (forall d, (2 <= d)%nat -> w_x (move_to i X w) i d = w_x w i d)).
      { unfold move_to. cbn [w_x w_v]. rewrite Nat.eqb_refl. cbn [andb]. split; [reflexivity|]. split; [intros d N; apply Nat.eqb_neq in N; now rewrite N|].
        intros d N. apply Nat.ltb_ge in N. now rewrite N. }
      split.
      * intros k Hk. destruct (in_dec Nat.eq_dec k m1) as [IN|NI].
        -- destruct (A k IN) as ((q & Hq & OQ) & R1 & R2 & R3 & R4 & R5 & R6 & R7). split; [exists q; split; [now right|exact OQ]|]. repeat (split; [assumption|]).
           destruct (Nat.eq_dec k i) as [->|N].
           ++ destruct VI as (V0 & V1 & V2). rewrite V0 in R5. split; [destruct R5 as [R5|R5]; rewrite R5; [now right|left; ring]|]. split; [intros d N; rewrite R6, V1; auto|intros d N; rewrite R7, V2; auto].
           ++ destruct (HX k N) as [XE VE]. rewrite VE, XE in *. auto.
        -- destruct Hk as [->|Hk]; [|contradiction]. destruct (B k NI) as [BX BV]. destruct VI as (V0 & V1 & V2). split; [exists p; split; [now left|exact OP]|].
           rewrite <- (k_im _ _ K). split; [exact IM|]. split; [exact SI|]. rewrite BX, BV. split.
           { apply (half_kept w0 w); [exact K|]. unfold in_half in *. unfold move_to. cbn [w_x]. rewrite Nat.eqb_refl. cbn [andb Nat.ltb Nat.leb]. exact HH. }
           split; [exact TI|]. split; [now right|]. split; assumption.
      * intros k Hk. destruct (B k ltac:(intros C; apply Hk; now right)) as [BX BV]. rewrite BX, BV. apply HX. intros ->. apply Hk. now left.
Qed.

(* The step after turnOn(): no forces act; every particle that is moved overlapped a wall, is movable, and lands on its own side (0: left, 1: right half),
   its velocity along x reversed or not; every other particle keeps place and velocity. The neighbour lists are rebuilt if something was moved; the
   wall is then an ordinary one. *)
Theorem C126_turn_on : forall free wd side l0 l1 l2 w rs w' rs' moved again on', w_dims w = 2%nat -> wd_side wd = Some side ->
  (forall d, 0 <= w_width w d) -> (forall i, 0 <= w_sg w i) -> (forall r, In r rs -> 0 <= r < 1) ->
  interact free wd (turnOn false) l0 l1 l2 w rs = Some ((w', rs', moved), again, on') ->
  on' = false /\ (again = true <-> moved <> []) /\
  w_f w' = w_f w /\ w_im w' = w_im w /\ w_sg w' = w_sg w /\ w_lo w' = w_lo w /\ w_hi w' = w_hi w /\
  (forall i, In i moved -> (exists p, In p l0 /\ of_pair wd i p) /\ 0 < w_im w i /\ (side i = 0 \/ side i = 1)%Z /\ in_half w (side i) (w_x w' i) /\ (0 <= wd_type wd i)%Z /\
     (w_v w' i 0%nat = w_v w i 0%nat \/ w_v w' i 0%nat = - w_v w i 0%nat) /\ w_v w' i 1%nat = w_v w i 1%nat) /\
  (forall i, ~ In i moved -> w_x w' i = w_x w i /\ w_v w' i = w_v w i).
Proof.
  intros free wd side l0 l1 l2 w rs w' rs' moved again on' HD SD HW HS O E. unfold interact, turnOn in E. rewrite HD in E. cbn [Nat.eqb negb] in E.
  destruct (wall_loop free wd true l0 (w, rs, [])) as [[[w1 rs1] m1]|] eqn:EL; [|discriminate]. injection E as -> -> -> <- <-.
  destruct (on_loop free wd side w [] SD HW HS l0 w rs [] w' rs' moved (kept_refl w) O EL) as (m1 & M & K & A & B). cbn in M. subst m1.
  split; [reflexivity|]. split; [destruct moved; cbn; split; (discriminate || congruence)|]. destruct K. repeat (split; [assumption|]). split; [|exact B].
  intros i Hi. destruct (A i Hi) as (R1 & R2 & R3 & R4 & R5 & R6 & R7 & R8). repeat (split; [assumption|]). apply R7. discriminate.
Qed.
Print Assumptions C126_turn_on.

(* Afterwards no listed wall overlaps a particle that can be moved, provided that the search for a free place finds what is there. *)
Theorem C126_separated : forall free wd side l0 l1 l2 w rs w' rs' moved again on', w_dims w = 2%nat -> wd_side wd = Some side ->
  (forall d, 0 <= w_width w d) -> (forall i, 0 <= w_sg w i) -> (forall r, In r rs -> 0 <= r < 1) ->
  (forall w X i j, In (i, j) l0 \/ In (j, i) l0 -> free w X = true -> i <> j -> w_sg w i + w_sg w j <= wall_dist (move_to i X w) i j) ->
  interact free wd (turnOn false) l0 l1 l2 w rs = Some ((w', rs', moved), again, on') ->
  forall i j, i <> j -> (In (i, j) l0 /\ (wd_type wd i <= wd_type wd j)%Z) \/ (In (j, i) l0 /\ (wd_type wd i < wd_type wd j)%Z) ->
    0 < w_im w i -> (side i = 0 \/ side i = 1)%Z -> ~ overlap wd w' i j.
Proof.
  intros free wd side l0 l1 l2 w rs w' rs' moved again on' HD SD HW HS O FI E. unfold interact, turnOn in E. rewrite HD in E. cbn [Nat.eqb negb] in E.
  destruct (wall_loop free wd true l0 (w, rs, [])) as [[[w1 rs1] m1]|] eqn:EL; [|discriminate]. injection E as -> -> -> _ _.
  assert (G : forall l u rs m, (forall p, In p l -> In p l0) -> kept w u -> ok_random rs -> wall_loop free wd true l (u, rs, m) = Some (w', rs', moved) ->
     (forall i j, In (i, j) l0 \/ In (j, i) l0 -> i <> j -> ~ overlap wd u i j -> ~ overlap wd w' i j) /\
     forall p i j, In p l -> of_pair wd i p -> (p = (i, j) \/ p = (j, i)) -> i <> j -> 0 < w_im w i -> (side i = 0 \/ side i = 1)%Z -> ~ overlap wd w' i j).
  { clear EL O rs. induction l as [|p l IH]; intros u rs m SUB K O E; cbn [wall_loop] in E.
    - injection E as <- _ _. split; [auto|]. intros p i j [].
    - destruct (wall_pair free wd true p (u, rs, m)) as [st|] eqn:EP; [|discriminate].
      destruct (on_pair free wd side p u rs m st SD O ltac:(now rewrite (kept_width _ _ K)) ltac:(now rewrite (k_sg _ _ K)) EP) as [[-> NO]|(k & X & rs1 & OP & -> & O1 & IM & SI & FR & HH & TI)].
      + destruct (IH u rs m ltac:(intros q Hq; apply SUB; now right) K O E) as [A B]. split; [exact A|]. intros q i j [<-|Hq] OQ PQ NE M S; [|now apply (B q)]. apply A; [specialize (SUB p (or_introl eq_refl)); destruct PQ as [->| ->]; auto|exact NE|]. apply NO; try assumption. now rewrite (k_im _ _ K).
      + destruct (IH (move_to k X u) rs1 (m ++ [k]) ltac:(intros q Hq; apply SUB; now right) (kept_trans _ _ _ K (move_kept k X u)) O1 E) as [A B].
        assert (NK : forall i j, In (i, j) l0 \/ In (j, i) l0 -> i <> j -> (i = k \/ j = k) -> ~ overlap wd (move_to k X u) i j).
        { intros i j IL NE [->| ->] (_ & _ & _ & C).
          - specialize (FI u X k j IL FR NE). unfold move_to in C at 2 3. cbn [w_sg] in C. lra.
          - specialize (FI u X k i ltac:(tauto) FR (not_eq_sym NE)). rewrite dist_sym in C by (intros d; rewrite (kept_width _ _ (kept_trans _ _ _ K (move_kept k X u))); apply HW). unfold move_to in C at 2 3. cbn [w_sg] in C. lra. }
        split.
        * intros i j IL NE NO. apply A; [exact IL|exact NE|]. destruct (Nat.eq_dec i k) as [->|N1]; [apply NK; auto|]. destruct (Nat.eq_dec j k) as [->|N2]; [apply NK; auto|].
          intros (T1 & T2 & C). apply NO. split; [exact T1|]. split; [exact T2|]. rewrite <- (dist_ext u (move_to k X u) i j (move_kept k X u)); [exact C| |];
            unfold move_to; cbn [w_x]; [apply Nat.eqb_neq in N1; now rewrite N1|apply Nat.eqb_neq in N2; now rewrite N2].
        * intros q i j [<-|Hq] OQ PQ NE M S; [|now apply (B q)]. assert (IL : In (i, j) l0 \/ In (j, i) l0) by (specialize (SUB p (or_introl eq_refl)); destruct PQ as [->| ->]; auto). apply A; [exact IL|exact NE|]. apply NK; [exact IL|exact NE|].
          destruct PQ as [-> | ->]; destruct OP as [[-> L]|[-> L]], OQ as [[E1 L']|[E1 L']]; cbn in *; auto; lia. }
  destruct (G l0 w rs [] (fun p Hp => Hp) (kept_refl w) O EL) as [_ B]. intros i j NE [[IN T]|[IN T]] M S.
  - apply (B (i, j)); auto. now left.
  - apply (B (j, i)); auto. now right.
Qed.
Print Assumptions C126_separated.

(* Pairs across a periodic border are in another list, which is not looked at: no force although particle and wall overlap. *)
Definition border_world : world :=
  mkW 2 (fun i d => match i, d with O, O => 1 / 4 | S O, O => 39 / 4 | _, _ => 5 end) (fun _ _ => 0) (fun _ _ => 0) (fun i => match i with O => 1 | _ => 0 end) (fun _ => 1 / 2) (fun _ => 0) (fun _ => 10) (fun _ => true).
Definition border_data : wall_data := mkWD (fun i => Z.of_nat i) (Some (fun _ => 0%Z)) 50.
Lemma border_disp d : wall_disp border_world 0 1 d = match d with O => 1 / 2 | _ => 0 end.
Proof.
  unfold wall_disp, correction, border_world, vsub, w_width. cbn [w_x w_bc w_hi w_lo]. destruct d.
  - replace (1 / 4 - 39 / 4) with (- (19 / 2)) by field. rewrite Rabs_Ropp, Rabs_right by lra. destruct (Rlt_dec _ _) as [_|C]; [|lra]. destruct (Rlt_dec _ _) as [C|_]; lra.
  - replace (5 - 5) with 0 by ring. rewrite Rabs_R0. destruct (Rlt_dec _ _) as [C|_]; lra.
Qed.
Lemma border_dist : wall_dist border_world 0 1 = 1 / 2.
Proof. unfold wall_dist. rewrite !border_disp. replace (1 / 2 * (1 / 2) + 0 * 0) with (1 / 2 * (1 / 2)) by ring. apply sqrt_square. lra. Qed.
Theorem C125_border_refuted : overlap border_data border_world 0 1 /\ wall_force border_data border_world 0 0 (0%nat, 1%nat) = 25 /\
  forall free, interact free border_data false [] [(0%nat, 1%nat)] [] border_world [] = Some ((border_world, [], []), false, false).
Proof.
  split; [|split; [|reflexivity]].
  - unfold overlap. rewrite border_dist. cbn [border_world w_sg border_data wd_type]. split; [lia|]. split; [lia|]. lra.
  - unfold wall_force. rewrite border_dist, border_disp. cbn -[Rlt_dec]. destruct (Rlt_dec _ _); [|lra]. destruct (Rlt_dec _ _); [|lra]. lra.
Qed.
Print Assumptions C125_border_refuted.
(* The same pair in the first list: pushed apart; when turned on, the particle is moved to the left half. *)
Example C125_case : exists f, interact (fun _ _ => true) border_data false [(1%nat, 0%nat)] [] [] border_world [] = Some ((with_f f border_world, [], []), false, false) /\ f 0%nat 0%nat = 25 /\ f 1%nat 0%nat = -25.
Proof.
  destruct (C125_forces (fun _ _ => true) border_data [(1%nat, 0%nat)] [] [] border_world []) as (f & E & H); [reflexivity|intros d; unfold w_width, border_world; cbn; lra|intros i; cbn; lra|].
  exists f. split; [exact E|]. assert (BO : box_ok border_world) by (intros d; unfold w_width, border_world; cbn; lra).
  rewrite !H by lia. unfold sum_over. cbn [fold_right]. rewrite !(force_sym _ _ _ _ 0 1 BO). unfold wall_force. rewrite border_dist, border_disp. cbn -[Rlt_dec]. destruct (Rlt_dec _ _); [|lra]. destruct (Rlt_dec _ _); [|lra]. split; lra.
Qed.
Print Assumptions C125_case.
(* a search for places that finds both particles *)
Definition both_free (w : world) (X : vec) : bool :=
  if Rle_dec (w_sg w 0%nat + w_sg w 1%nat) (wall_dist (move_to 0 X w) 0 1) then if Rle_dec (w_sg w 1%nat + w_sg w 0%nat) (wall_dist (move_to 1 X w) 1 0) then true else false else false.
Lemma axis_dist (w : world) i j a : wall_disp w i j 0%nat = a -> wall_disp w i j 1%nat = 0 -> wall_dist w i j = Rabs a.
Proof. intros A B. unfold wall_dist. rewrite A, B. replace (a * a + 0 * 0) with (Rsqr a) by (unfold Rsqr; ring). apply sqrt_Rsqr_abs. Qed.
Example C126_case : (forall w X i j, In (i, j) [(0%nat, 1%nat)] \/ In (j, i) [(0%nat, 1%nat)] -> both_free w X = true -> i <> j -> w_sg w i + w_sg w j <= wall_dist (move_to i X w) i j) /\
  exists w', interact both_free border_data (turnOn false) [(0%nat, 1%nat)] [] [] border_world [0; 1 / 2; 1 / 2; 1 / 2; 0] = Some ((w', [0], [0%nat]), true, false) /\
  w_x w' 0%nat 0%nat = 5 / 2 /\ w_x w' 0%nat 1%nat = 5.
Proof.
  assert (D01 : forall a b, 0 <= a <= 5 / 2 -> wall_disp (move_to 0 (vec2 a 5) border_world) 0 1 0%nat = (if Rlt_dec a (19 / 4) then a + 1 / 4 else b)).
  { intros a b Ha. unfold wall_disp, correction, move_to, vsub, w_width, border_world. cbn [w_x w_bc w_hi w_lo Nat.eqb Nat.ltb Nat.leb andb vec2]. destruct (Rlt_dec a (19 / 4)) as [_|C]; [|lra].
    rewrite Rabs_left1 by lra. destruct (Rlt_dec _ _) as [_|C]; [|lra]. destruct (Rlt_dec _ _) as [C|_]; lra. }
  assert (D10 : forall a, 1 / 4 <= a <= 5 -> wall_disp (move_to 1 (vec2 a 5) border_world) 1 0 0%nat = a - 1 / 4).
  { intros a Ha. unfold wall_disp, correction, move_to, vsub, w_width, border_world. cbn [w_x w_bc w_hi w_lo Nat.eqb Nat.ltb Nat.leb andb vec2].
    rewrite Rabs_right by lra. destruct (Rlt_dec _ _) as [C|_]; [lra|]. reflexivity. }
  assert (DY : forall k i j a, wall_disp (move_to k (vec2 a 5) border_world) i j 1%nat = 0).
  { intros k i j a. unfold wall_disp, correction, move_to, vsub, w_width, border_world. cbn [w_x w_bc w_hi w_lo Nat.ltb Nat.leb vec2]. rewrite !andb_true_r.
    destruct (i =? k)%nat, (j =? k)%nat; cbn [vec2]; destruct i as [|[|]], j as [|[|]]; replace (5 - 5) with 0 by ring; rewrite Rabs_R0; destruct (Rlt_dec _ _) as [C|_]; lra. }
  split.
  - intros w X i j HI F NE. unfold both_free in F. destruct (Rle_dec _ _) as [A|]; [|discriminate]. destruct (Rle_dec _ _) as [B|]; [|discriminate].
    destruct HI as [[HI|[]]|[HI|[]]]; injection HI as <- <-; assumption.
  - unfold interact, turnOn. cbn [border_world w_dims Nat.eqb negb wall_loop]. fold border_world. unfold wall_pair. cbn [border_data wd_type wd_side Z.of_nat Z.ltb Z.compare orb Pos.of_succ_nat].
    change (correction (w_bc border_world) (w_width border_world) (vsub (w_x border_world 0%nat) (w_x border_world 1%nat))) with (wall_disp border_world 0 1).
    rewrite !border_disp. destruct (Rlt_dec _ _) as [_|C]; [|lra]. destruct (Rlt_dec _ _) as [_|C]; [|cbn in C; lra]. destruct (Rlt_dec _ _) as [_|C]; [|cbn in C; lra].
    cbn [Z.eqb draw_place].
    replace (w_lo border_world 0%nat + 25 / 1000 * w_width border_world 0%nat + 0 * (45 / 100) * w_width border_world 0%nat) with (1 / 4) by (unfold w_width, border_world; cbn; field).
    replace (w_lo border_world 1%nat + 1 / 2 * w_width border_world 1%nat) with 5 by (unfold w_width, border_world; cbn; field).
    replace (w_lo border_world 0%nat + 25 / 1000 * w_width border_world 0%nat + 1 / 2 * (45 / 100) * w_width border_world 0%nat) with (5 / 2) by (unfold w_width, border_world; cbn; field).
    assert (F1 : both_free border_world (vec2 (1 / 4) 5) = false).
    { unfold both_free. rewrite (axis_dist _ 0 1 (1 / 2)); [|rewrite (D01 (1 / 4) 0) by lra; destruct (Rlt_dec _ _); lra|apply DY]. rewrite Rabs_right by lra. destruct (Rle_dec _ _) as [C|_]; [cbn in C; lra|reflexivity]. }
    assert (F2 : both_free border_world (vec2 (5 / 2) 5) = true).
    { unfold both_free. rewrite (axis_dist _ 0 1 (11 / 4)); [|rewrite (D01 (5 / 2) 0) by lra; destruct (Rlt_dec _ _); lra|apply DY]. rewrite (axis_dist _ 1 0 (9 / 4)); [|rewrite D10 by lra; lra|apply DY].
      rewrite !Rabs_right by lra. destruct (Rle_dec _ _) as [_|C]; [|cbn in C; lra]. destruct (Rle_dec _ _) as [_|C]; [reflexivity|cbn in C; lra]. }
    rewrite F1, F2. cbn [option_map fst snd app]. eexists. split; [reflexivity|]. cbn. lra.
Qed.
Print Assumptions C126_case.
