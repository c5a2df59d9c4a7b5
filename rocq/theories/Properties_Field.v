(* C127: the field of mean velocities. *)
From Coq Require Import QArith List Bool ZArith Lia Lqa String.
From Verif Require Import Lib Model_Geometry Model_Bins Spec_Bins Proofs_Bins Properties_Bins Model_Field Spec_Field.
Import ListNotations.
Local Open Scope Q_scope.

Lemma nth_concat {A} w (rows : list (list A)) : (forall r, In r rows -> List.length r = w) -> forall i k r, nth_error rows i = Some r -> (k < w)%nat ->
  nth_error (concat rows) (i * w + k) = nth_error r k.
Proof.
  induction rows as [|r0 rows IH]; intros L i k r Hi Hk; [destruct i; discriminate|]. cbn [concat]. assert (L0 : List.length r0 = w) by (apply L; now left).
  destruct i as [|i].
  - cbn in Hi. injection Hi as ->. cbn [Nat.mul Nat.add]. apply nth_error_app1. now rewrite L0.
  - cbn [nth_error] in Hi. rewrite nth_error_app2 by (rewrite L0; cbn [Nat.mul]; lia). rewrite L0.
    replace (S i * w + k - w)%nat with (i * w + k)%nat by (cbn [Nat.mul]; lia). apply IH; auto. intros; apply L; now right.
Qed.
Lemma row_num w rows i k : (forall r, In r rows -> List.length r = w) -> (i < List.length rows)%nat -> (k < w)%nat ->
  nth_error (concat rows) (i * w + k) = Some (num k (nth i rows [])).
Proof.
  intros L Hi Hk. rewrite (nth_concat w rows L i k (nth i rows [])); [|now apply nth_error_nth'|exact Hk].
  unfold num. apply nth_error_nth'. rewrite L; [exact Hk|]. now apply nth_In.
Qed.
Lemma places_rows w rows : (forall r, In r rows -> List.length r = w) -> (2 <= w)%nat -> forall ids, (forall i, In i ids -> (i < List.length rows)%nat) ->
  places (concat rows) w ids = Some (map (fun i => (num 0 (nth i rows []), num 1 (nth i rows []))) ids).
Proof.
  intros L Hw. induction ids as [|i ids IH]; intros H; [reflexivity|]. cbn [places map].
  replace (i * w)%nat with (i * w + 0)%nat at 1 by lia. rewrite !(row_num w) by (try assumption; try lia; apply H; now left).
  rewrite IH by (intros; apply H; now right). reflexivity.
Qed.
Lemma map_nth_seq {A B} (f : A -> B) (l : list A) d : map (fun i => f (nth i l d)) (seq 0 (List.length l)) = map f l.
Proof.
  induction l as [|a l IH]; [reflexivity|]. cbn [List.length seq map nth]. f_equal. rewrite <- seq_shift, map_map. exact IH.
Qed.
Lemma filter_nth_seq {A} (P : A -> bool) (l : list A) d : map (fun i => nth i l d) (filter (fun i => P (nth i l d)) (seq 0 (List.length l))) = filter P l.
Proof.
  induction l as [|a l IH]; [reflexivity|]. cbn [List.length seq filter]. rewrite <- seq_shift. change (nth 0 (a :: l) d) with a.
  assert (E : map (fun i => nth i (a :: l) d) (filter (fun i => P (nth i (a :: l) d)) (map S (seq 0 (List.length l)))) = filter P l).
  { rewrite <- IH. generalize (seq 0 (List.length l)). intros s. induction s as [|k s IHs]; [reflexivity|]. cbn [map filter]. change (nth (S k) (a :: l) d) with (nth k l d). destruct (P (nth k l d)); cbn [map]; rewrite IHs; reflexivity. }
  destruct (P a); cbn [map]; [change (nth 0 (a :: l) d) with a|]; rewrite E; reflexivity.
Qed.
Lemma add_vel_rows w rows : (forall r, In r rows -> List.length r = w) -> (4 <= w)%nat -> forall ids, (forall i, In i ids -> (i < List.length rows)%nat) ->
  forall s ax ay, exists s' ax' ay', add_vel (concat rows) w (map Z.of_nat ids) (s, ax, ay) = Some (s', ax', ay') /\
    s' == s + sum (fun r => num 2 r * num 2 r + num 3 r * num 3 r) (map (fun i => nth i rows []) ids) /\
    ax' == ax + sum (num 2) (map (fun i => nth i rows []) ids) /\ ay' == ay + sum (num 3) (map (fun i => nth i rows []) ids).
Proof.
  intros L Hw. induction ids as [|i ids IH]; intros H s ax ay; cbn [map add_vel sum fold_right].
  - exists s, ax, ay. split; [reflexivity|]. repeat split; ring.
  - unfold vel. rewrite !Nat2Z.id. replace (w * i + 2 + 0)%nat with (i * w + 2)%nat by lia. replace (w * i + 2 + 1)%nat with (i * w + 3)%nat by lia.
    rewrite !(row_num w) by (try assumption; try lia; apply H; now left).
    edestruct IH as (s' & ax' & ay' & E & E1 & E2 & E3); [intros; apply H; now right|]. rewrite E. exists s', ax', ay'. split; [reflexivity|].
    rewrite E1, E2, E3. unfold sum. cbn [fold_right]. repeat split; ring.
Qed.
Lemma all_some_map {A} (l : list A) : all_some (map Some l) = Some l.
Proof. induction l as [|a l IH]; [reflexivity|]. cbn [map all_some]. now rewrite IH. Qed.
Lemma all_some_ex {A} (l : list (option A)) : (forall o, In o l -> o <> None) -> exists r, all_some l = Some r /\ l = map Some r.
Proof.
  induction l as [|o l IH]; intros H; [now exists []|]. destruct IH as (r & E1 & E2); [intros; apply H; now right|].
  destruct o as [a|]; [|now destruct (H None (or_introl eq_refl))]. exists (a :: r). cbn [all_some map]. rewrite E1. split; [reflexivity|now rewrite E2].
Qed.
Lemma nth_error_flat {A} (f : nat -> nat -> A) nx ny x y : (x < nx)%nat -> (y < ny)%nat -> forall a,
  nth_error (flat_map (fun i => map (f i) (seq 0 nx)) (seq a ny)) (y * nx + x) = Some (f (a + y)%nat x).
Proof.
  intros Hx. revert y. induction ny as [|ny IH]; intros y Hy a; [lia|]. cbn [seq flat_map].
  assert (L : List.length (map (f a) (seq 0 nx)) = nx) by now rewrite map_length, seq_length.
  destruct y as [|y].
  - cbn [Nat.mul Nat.add]. rewrite nth_error_app1 by now rewrite L. rewrite Nat.add_0_r. rewrite (map_nth_error (f a) x (seq 0 nx) (d := x)); [reflexivity|].
    rewrite (nth_error_nth' (seq 0 nx) 0%nat) by (rewrite seq_length; exact Hx). now rewrite seq_nth.
  - rewrite nth_error_app2 by (rewrite L; cbn [Nat.mul]; lia). rewrite L. replace (S y * nx + x - nx)%nat with (y * nx + x)%nat by (cbn [Nat.mul]; lia).
    rewrite IH by lia. now rewrite <- Nat.add_succ_comm.
Qed.
Lemma length_flat {A} (f : nat -> nat -> A) nx ny a : List.length (flat_map (fun i => map (f i) (seq 0 nx)) (seq a ny)) = (ny * nx)%nat.
Proof. revert a. induction ny as [|ny IH]; intros a; [reflexivity|]. cbn [seq flat_map]. rewrite app_length, IH, map_length, seq_length. reflexivity. Qed.
Lemma bins_res w : res <= w -> let n := Qtrunc (w / res) in (1 <= n)%Z /\ res <= w / inject_Z n /\ w / inject_Z n < 2 * res.
Proof.
  intros H n. assert (Hr : 0 < res) by reflexivity. assert (H1 : 1 <= w / res) by (apply Qle_shift_div_l; [exact Hr|lra]).
  assert (En : n = Qfloor (w / res)). { unfold n, Qtrunc. destruct (Qltb_spec (w / res) 0) as [B|B]; [exfalso; lra|reflexivity]. }
  assert (N1 : (1 <= n)%Z). { rewrite En. change 1%Z with (Qfloor 1). now apply Qfloor_resp_le. }
  pose proof (Qfloor_le (w / res)) as F1. pose proof (Qlt_floor (w / res)) as F2. rewrite <- En in F1, F2. rewrite inject_Z_plus in F2. change (inject_Z 1) with 1 in F2.
  assert (N2 : 1 <= inject_Z n) by (change 1 with (inject_Z 1); now rewrite <- Zle_Qle).
  assert (Ew : w == w / res * res) by (field; lra).
  split; [exact N1|]. set (q := w / res) in *. clearbody q n. split.
  - apply Qle_shift_div_l; [lra|]. rewrite Ew. rewrite Qmult_comm. apply Qmult_le_compat_r; lra.
  - apply Qlt_shift_div_r; [lra|]. rewrite Ew. assert (q < 2 * inject_Z n) by lra. clear - H0 Hr. unfold res in *. nra.
Qed.
Lemma Qltb_comp a b c d : a == c -> b == d -> Qltb a b = Qltb c d.
Proof. intros E1 E2. destruct (Qltb_spec a b), (Qltb_spec c d); try reflexivity; exfalso; rewrite E1, E2 in *; contradiction. Qed.
Lemma Qleb_comp a b c d : a == c -> b == d -> Qle_bool a b = Qle_bool c d.
Proof. intros E1 E2. destruct (Qleb_spec a b), (Qleb_spec c d); try reflexivity; exfalso; rewrite E1, E2 in *; contradiction. Qed.

(* the fields of one frame *)
Definition good_field (rows : list (list Q)) (x0 x1 y0 y1 : Q) (f : field) : Prop :=
  exists nx ny, fl_nx f = Z.of_nat nx /\ fl_ny f = Z.of_nat ny /\ (0 < nx)%nat /\ (0 < ny)%nat /\
    let wx := (x1 - x0) / inject_Z (Z.of_nat nx) in let wy := (y1 - y0) / inject_Z (Z.of_nat ny) in
    fl_x0 f = x0 /\ fl_y0 f = y0 /\ fl_dx f = wx /\ fl_dy f = wy /\ res <= wx /\ wx < 2 * res /\ res <= wy /\ wy < 2 * res /\
    List.length (fl_data f) = (ny * nx)%nat /\
    forall cx cy, (cx < nx)%nat -> (cy < ny)%nat -> exists c, nth_error (fl_data f) (cy * nx + cx) = Some c /\
      let l := filter (fun r => in_bin x0 wx cx (num 0 r) && in_bin y0 wy cy (num 1 r)) rows in
      c_phi c = Z.of_nat (List.length l) /\ fst (c_v c) == mean_of 2 l /\ snd (c_v c) == mean_of 3 l.
Lemma field_good rows w x0 x1 y0 y1 old : (forall r, In r rows -> List.length r = w) -> (4 <= w)%nat -> res <= x1 - x0 -> res <= y1 - y0 ->
  (forall r, In r rows -> x0 <= num 0 r /\ y0 <= num 1 r) ->
  exists f, create_field (concat rows) x0 x1 y0 y1 (List.length rows) w old = Some f /\ good_field rows x0 x1 y0 y1 f.
Proof.
  intros L Hw Hx Hy Hlow. unfold create_field. destruct (bins_res _ Hx) as (Nx & Rx1 & Rx2). destruct (bins_res _ Hy) as (Ny & Ry1 & Ry2).
  set (bx := Qtrunc ((x1 - x0) / res)) in *. set (by_ := Qtrunc ((y1 - y0) / res)) in *. clearbody bx by_.
  destruct (Z.ltb_spec bx 1); [lia|]. destruct (Z.ltb_spec by_ 1); [lia|]. cbn [orb]. assert (Hr : 0 < res) by reflexivity.
  destruct (C50_grid_partial bx by_ x0 x1 y0 y1) as (g & Eg & G); [lia|lia|lra|lra|]. rewrite Eg.
  rewrite (places_rows w rows L) by (try lia; intros i Hi; apply in_seq in Hi; lia). rewrite (map_nth_seq (fun r => (num 0 r, num 1 r)) rows []).
  set (pts := map (fun r => (num 0 r, num 1 r)) rows). destruct (G pts) as (g1 & E1 & G1). rewrite E1. destruct (G1 []) as (g2 & Eg2 & G2). clear G G1.
  assert (Hpts : forall x y, In (x, y) pts -> x0 <= x /\ y0 <= y).
  { intros x y Hin. unfold pts in Hin. apply in_map_iff in Hin. destruct Hin as (r & Er & Hin). injection Er as <- <-. now apply Hlow. }
  set (nx := Z.to_nat bx). set (ny := Z.to_nat by_). assert (Enx : bx = Z.of_nat nx) by (unfold nx; lia). assert (Eny : by_ = Z.of_nat ny) by (unfold ny; lia).
  set (wx := (x1 - x0) / inject_Z bx) in *. set (wy := (y1 - y0) / inject_Z by_) in *.
  set (inb := fun cx cy r => in_bin x0 wx cx (num 0 r) && in_bin y0 wy cy (num 1 r)).
  assert (C : forall cx cy, (cx < nx)%nat -> (cy < ny)%nat -> exists c, (match grid_at (Z.of_nat cx) (Z.of_nat cy) g1 with None => None | Some ids => cell_of (concat rows) w ids end) = Some c /\
     c_phi c = Z.of_nat (List.length (filter (inb cx cy) rows)) /\ fst (c_v c) == mean_of 2 (filter (inb cx cy) rows) /\ snd (c_v c) == mean_of 3 (filter (inb cx cy) rows)).
  { intros cx cy Hcx Hcy. destruct (G2 cx cy Hcx Hcy) as [K _]. rewrite (K Hpts). unfold cell_points. unfold pts at 2. rewrite map_length.
    set (ids := filter (fun k => match nth_error pts k with Some (x, y) => in_bin x0 wx cx x && in_bin y0 wy cy y | None => false end) (seq 0 (List.length rows))).
    assert (Eids : ids = filter (fun i => inb cx cy (nth i rows [])) (seq 0 (List.length rows))).
    { unfold ids. apply filter_ext_in. intros i Hi. apply in_seq in Hi. unfold pts. rewrite (map_nth_error _ i rows (d := nth i rows [])); [reflexivity|]. apply nth_error_nth'. lia. }
    unfold cell_of. destruct (add_vel_rows w rows L Hw ids) with (s := 0) (ax := 0) (ay := 0) as (s & ax & ay & Ea & _ & Eax & Eay).
    { intros i Hi. unfold ids in Hi. apply filter_In in Hi. destruct Hi as [Hi _]. apply in_seq in Hi. lia. }
    rewrite Ea. eexists. split; [reflexivity|]. cbn [c_phi c_v fst snd]. rewrite map_length.
    assert (Ef : map (fun i => nth i rows []) ids = filter (inb cx cy) rows) by (rewrite Eids; apply filter_nth_seq).
    rewrite Ef in Eax, Eay. assert (El : List.length ids = List.length (filter (inb cx cy) rows)) by (rewrite <- Ef, map_length; reflexivity). rewrite El.
    destruct (filter (inb cx cy) rows) as [|r l].
    - cbn [List.length]. change (0 <? Z.of_nat 0)%Z with false. repeat split; reflexivity.
    - set (n := Z.of_nat (List.length (r :: l))). assert (0 < n)%Z by (unfold n; cbn [List.length]; lia). destruct (Z.ltb_spec 0 n); [|lia].
      split; [reflexivity|]. unfold mean_of. fold n. rewrite Eax, Eay. rewrite !Qplus_0_l. split; reflexivity. }
  set (cells := flat_map _ _). destruct (all_some_ex cells) as (cs & Ecs & Em).
  { unfold cells. intros o Ho. apply in_flat_map in Ho. destruct Ho as (y & Hy1 & Ho). apply in_map_iff in Ho. destruct Ho as (x & <- & Hx1). apply in_seq in Hx1, Hy1.
    destruct (C x y) as (c & Ec & _); [lia|lia|]. rewrite Ec. discriminate. }
  rewrite Ecs. eexists. split; [reflexivity|]. exists nx, ny. cbn [fl_nx fl_ny fl_x0 fl_y0 fl_dx fl_dy fl_data].
  split; [exact Enx|]. split; [exact Eny|]. split; [lia|]. split; [lia|]. cbv zeta. rewrite <- Enx, <- Eny. fold wx wy. do 4 (split; [reflexivity|]). do 4 (split; [assumption|]).
  split.
  { rewrite <- (map_length Some cs), <- Em. unfold cells. apply length_flat. }
  intros cx cy Hcx Hcy. destruct (C cx cy Hcx Hcy) as (c & Ec & R). exists c. split; [|exact R].
  assert (N : nth_error cells (cy * nx + cx) = Some (Some c)).
  { unfold cells. rewrite nth_error_flat by assumption. cbn [Nat.add]. now rewrite Ec. }
  rewrite Em in N. destruct (nth_error cs (cy * nx + cx)) as [c'|] eqn:E.
  - rewrite (map_nth_error Some _ _ E) in N. injection N as ->. reflexivity.
  - exfalso. apply nth_error_None in E. assert (nth_error (map Some cs) (cy * nx + cx) = None) by (apply nth_error_None; rewrite map_length; exact E). congruence.
Qed.

Lemma in_bin_inside x0 wx y0 wy cx cy px py r : px == x0 + inject_Z (Z.of_nat cx) * wx -> py == y0 + inject_Z (Z.of_nat cy) * wy ->
  inside px py wx wy r = in_bin x0 wx cx (num 0 r) && in_bin y0 wy cy (num 1 r).
Proof.
  intros Ex Ey. unfold inside, in_bin.
  rewrite (Qleb_comp px (num 0 r) _ (num 0 r) Ex), (Qleb_comp py (num 1 r) _ (num 1 r) Ey) by reflexivity.
  rewrite (Qltb_comp (num 0 r) (px + wx) (num 0 r) (x0 + inject_Z (Z.of_nat cx + 1) * wx)) by (try reflexivity; rewrite Ex, inject_Z_plus; change (inject_Z 1) with 1; ring).
  rewrite (Qltb_comp (num 1 r) (py + wy) (num 1 r) (y0 + inject_Z (Z.of_nat cy + 1) * wy)) by (try reflexivity; rewrite Ey, inject_Z_plus; change (inject_Z 1) with 1; ring).
  reflexivity.
Qed.
Lemma concat_len w (rows : list (list Q)) : (forall r, In r rows -> List.length r = w) -> List.length (concat rows) = (List.length rows * w)%nat.
Proof. induction rows as [|r rows IH]; intros L; [reflexivity|]. cbn [concat List.length Nat.mul]. rewrite app_length, IH, (L r); auto; [now left|intros; apply L; now right]. Qed.
Lemma csv_good rows x0 x1 y0 y1 f : good_field rows x0 x1 y0 y1 f -> exists nx ny, (0 < nx)%nat /\ (0 < ny)%nat /\
  let wx := (x1 - x0) / inject_Z (Z.of_nat nx) in let wy := (y1 - y0) / inject_Z (Z.of_nat ny) in
  res <= wx /\ wx < 2 * res /\ res <= wy /\ wy < 2 * res /\ exists lines, csv f = Some lines /\ List.length lines = (ny * nx)%nat /\
  forall cx cy, (cx < nx)%nat -> (cy < ny)%nat -> exists px py vx vy, nth_error lines (cy * nx + cx) = Some (px, py, (vx, vy)) /\
    px == x0 + inject_Z (Z.of_nat cx) * wx /\ py == y0 + inject_Z (Z.of_nat cy) * wy /\
    vx == mean_of 2 (filter (inside px py wx wy) rows) /\ vy == mean_of 3 (filter (inside px py wx wy) rows).
Proof.
  intros (nx & ny & Enx & Eny & Hnx & Hny & Ex0 & Ey0 & Edx & Edy & R1 & R2 & R3 & R4 & Len & C). exists nx, ny. split; [exact Hnx|]. split; [exact Hny|]. intros wx wy. do 4 (split; [assumption|]).
  unfold csv. rewrite Enx, Eny, !Nat2Z.id, Ex0, Ey0, Edx, Edy. fold wx wy. fold wx wy in C. set (cells := flat_map _ _).
  assert (K : forall cx cy, (cx < nx)%nat -> (cy < ny)%nat -> exists c, nth_error cells (cy * nx + cx) = Some (Some (inject_Z (Z.of_nat cx) * wx + x0, inject_Z (Z.of_nat cy) * wy + y0, c_v c)) /\
     fst (c_v c) == mean_of 2 (filter (fun r => in_bin x0 wx cx (num 0 r) && in_bin y0 wy cy (num 1 r)) rows) /\
     snd (c_v c) == mean_of 3 (filter (fun r => in_bin x0 wx cx (num 0 r) && in_bin y0 wy cy (num 1 r)) rows)).
  { intros cx cy Hcx Hcy. destruct (C cx cy Hcx Hcy) as (c & Ec & _ & A & B). exists c. split; [|split; assumption]. unfold cells. rewrite nth_error_flat by assumption. cbn [Nat.add]. now rewrite Ec. }
  destruct (all_some_ex cells) as (lines & El & Em).
  { unfold cells. intros o Ho. apply in_flat_map in Ho. destruct Ho as (y & Hy1 & Ho). apply in_map_iff in Ho. destruct Ho as (x & <- & Hx1). apply in_seq in Hx1, Hy1.
    destruct (C x y) as (c & Ec & _); [lia|lia|]. rewrite Ec. discriminate. }
  exists lines. split; [exact El|]. split; [rewrite <- (map_length Some lines), <- Em; unfold cells; apply length_flat|].
  intros cx cy Hcx Hcy. destruct (K cx cy Hcx Hcy) as (c & N & A & B). rewrite Em in N.
  assert (N' : nth_error lines (cy * nx + cx) = Some (inject_Z (Z.of_nat cx) * wx + x0, inject_Z (Z.of_nat cy) * wy + y0, c_v c)).
  { destruct (nth_error lines (cy * nx + cx)) as [c'|] eqn:E.
    - rewrite (map_nth_error Some _ _ E) in N. injection N as ->. reflexivity.
    - exfalso. apply nth_error_None in E. assert (nth_error (map Some lines) (cy * nx + cx) = None) by (apply nth_error_None; rewrite map_length; exact E). congruence. }
  exists (inject_Z (Z.of_nat cx) * wx + x0), (inject_Z (Z.of_nat cy) * wy + y0), (fst (c_v c)), (snd (c_v c)). rewrite N'.
  split; [now destruct (c_v c)|]. split; [ring|]. split; [ring|].
  assert (Ef : filter (inside (inject_Z (Z.of_nat cx) * wx + x0) (inject_Z (Z.of_nat cy) * wy + y0) wx wy) rows = filter (fun r => in_bin x0 wx cx (num 0 r) && in_bin y0 wy cy (num 1 r)) rows).
  { apply filter_ext. intros r. apply in_bin_inside; ring. }
  rewrite Ef. split; assumption.
Qed.

(* One file for each frame; in file k, line cy * nx + cx has the lower corner of cell (cx, cy) and the mean velocity of the particles of frame k that are in
   this cell; the cells cover the bounds and are between 0.15 and 0.3 wide. Two dimensions, velocities after the positions, no particle below the bounds. *)
Theorem C127_files_partial (frames : list (list (list Q))) w x0 x1 y0 y1 : (4 <= w)%nat -> (3 # 20) <= x1 - x0 -> (3 # 20) <= y1 - y0 ->
  (forall rows r, In rows frames -> In r rows -> List.length r = w /\ x0 <= num 0 r /\ y0 <= num 1 r) -> forall old,
  exists files, field_files (map (@concat Q) frames) x0 x1 y0 y1 w old = Some files /\ List.length files = List.length frames /\
  forall k rows lines, nth_error frames k = Some rows -> nth_error files k = Some lines -> exists nx ny, (0 < nx)%nat /\ (0 < ny)%nat /\
    let wx := (x1 - x0) / inject_Z (Z.of_nat nx) in let wy := (y1 - y0) / inject_Z (Z.of_nat ny) in
    (3 # 20) <= wx /\ wx < (3 # 10) /\ (3 # 20) <= wy /\ wy < (3 # 10) /\ List.length lines = (ny * nx)%nat /\
    forall cx cy, (cx < nx)%nat -> (cy < ny)%nat -> exists px py vx vy, nth_error lines (cy * nx + cx) = Some (px, py, (vx, vy)) /\
      px == x0 + inject_Z (Z.of_nat cx) * wx /\ py == y0 + inject_Z (Z.of_nat cy) * wy /\
      vx == mean_of 2 (filter (inside px py wx wy) rows) /\ vy == mean_of 3 (filter (inside px py wx wy) rows).
Proof.
  intros Hw Hx Hy. induction frames as [|rows frames IH]; intros H old.
  - exists []. split; [reflexivity|]. split; [reflexivity|]. intros [|k]; discriminate.
  - cbn [map field_files]. destruct (Nat.eqb_spec w 0); [lia|].
    assert (L : forall r, In r rows -> List.length r = w) by (intros r Hr; apply (H rows r); [now left|exact Hr]).
    rewrite (concat_len w rows L), Nat.div_mul by lia.
    destruct (field_good rows w x0 x1 y0 y1 old L Hw Hx Hy) as (f & Ef & Gf). { intros r Hr; apply (H rows r); [now left|exact Hr]. }
    rewrite Ef. destruct (csv_good _ _ _ _ _ _ Gf) as (nx & ny & Hnx & Hny & R1 & R2 & R3 & R4 & lines & El & Len & C). rewrite El.
    destruct (IH (fun rows r Hin => H rows r (or_intror Hin)) f) as (files & Efs & Lfs & K). rewrite Efs. exists (lines :: files). split; [reflexivity|].
    split; [cbn [List.length]; now rewrite Lfs|]. intros [|k] rows' lines' E1 E2; [|exact (K k rows' lines' E1 E2)]. cbn in E1, E2. injection E1 as <-. injection E2 as <-.
    exists nx, ny. split; [exact Hnx|]. split; [exact Hny|]. cbv zeta. assert (E10 : 2 * res <= 3 # 10) by discriminate.
    split; [exact R1|]. split; [exact (Qlt_le_trans _ _ _ R2 E10)|]. split; [exact R3|]. split; [exact (Qlt_le_trans _ _ _ R4 E10)|]. split; assumption.
Qed.
Print Assumptions C127_files_partial.
Example C127_files_case : option_map (map (map (fun '(x, y, (vx, vy)) => (Qred x, Qred y, (Qred vx, Qred vy)))))
  (field_files (map (@concat Q) [[[0; 0; 1; 2]; [1#20; 1#20; 3; 4]; [1#5; 0; 5; 6]]; []]) 0 (2#5) 0 (1#5) 4 no_field) =
  Some [[(0, 0, (2, 3)); (1#5, 0, (5, 6))]; [(0, 0, (0, 0)); (1#5, 0, (0, 0))]].
Proof. vm_compute. reflexivity. Qed.
Lemma b2n_bins lo w v n : 0 < w -> fold_right (fun i s => (if in_bin lo w i v then 1 else 0) + s)%Z 0%Z (seq 0 n) = if Qle_bool lo v && Qltb v (lo + inject_Z (Z.of_nat n) * w) then 1%Z else 0%Z.
Proof.
  intros Hw. induction n as [|n IH].
  - cbn [seq fold_right]. change (inject_Z (Z.of_nat 0)) with 0. destruct (Qleb_spec lo v) as [A|A], (Qltb_spec v (lo + 0 * w)) as [B|B]; try reflexivity. exfalso; lra.
  - rewrite seq_S, fold_right_app. cbn [fold_right Nat.add].
    assert (G : forall (z : Z) l, fold_right (fun i s => (if in_bin lo w i v then 1 else 0) + s)%Z z l = (fold_right (fun i s => (if in_bin lo w i v then 1 else 0) + s) 0 l + z)%Z).
    { intros z. induction l as [|a l IHl]; cbn [fold_right]; [lia|]. rewrite IHl. lia. }
    rewrite G, IH. unfold in_bin. replace (Z.of_nat (S n)) with (Z.of_nat n + 1)%Z by lia. rewrite inject_Z_plus. change (inject_Z 1) with 1.
    assert (0 <= inject_Z (Z.of_nat n) * w) by (apply Qmult_le_0_compat; [change 0 with (inject_Z 0); rewrite <- Zle_Qle; lia|lra]).
    set (q := inject_Z (Z.of_nat n) * w) in *. assert (E : (inject_Z (Z.of_nat n) + 1) * w == q + w) by (unfold q; ring).
    rewrite !(Qltb_comp v (lo + (inject_Z (Z.of_nat n) + 1) * w) v (lo + (q + w))) by (try reflexivity; rewrite E; reflexivity). clearbody q.
    destruct (Qleb_spec lo v) as [A|A], (Qltb_spec v (lo + q)) as [B|B], (Qleb_spec (lo + q) v) as [C|C], (Qltb_spec v (lo + (q + w))) as [D|D]; cbn; try reflexivity; exfalso; lra.
Qed.
Definition zsum (l : list Z) : Z := fold_right Z.add 0%Z l.
Lemma zcons a l : zsum (a :: l) = (a + zsum l)%Z.
Proof. reflexivity. Qed.
Lemma zsum_app a b : zsum (a ++ b) = (zsum a + zsum b)%Z.
Proof. unfold zsum. induction a as [|x a IH]; cbn [app fold_right]; [lia|]. rewrite IH. lia. Qed.
Lemma zsum_cells {A} (P : nat -> nat -> A -> bool) (B : A -> Z) nx ny (l : list A) :
  (forall a, In a l -> zsum (flat_map (fun y => map (fun x => if P x y a then 1%Z else 0%Z) (seq 0 nx)) (seq 0 ny)) = B a) ->
  zsum (flat_map (fun y => map (fun x => Z.of_nat (List.length (filter (P x y) l))) (seq 0 nx)) (seq 0 ny)) = zsum (map B l).
Proof.
  intros H. induction l as [|a l IH].
  - cbn [filter List.length map]. change (Z.of_nat 0) with 0%Z. generalize (seq 0 ny). intros s. induction s as [|y s IHs]; [reflexivity|]. cbn [flat_map]. rewrite zsum_app, IHs.
    assert (Z0 : forall t : list nat, zsum (map (fun _ => 0%Z) t) = 0%Z) by (intros t; induction t as [|x t IHt]; [reflexivity|exact IHt]). rewrite Z0. reflexivity.
  - cbn [map]. change (zsum (B a :: map B l)) with (B a + zsum (map B l))%Z. rewrite <- (H a) by now left. rewrite <- IH by (intros; apply H; now right). clear.
    generalize (seq 0 ny). intros s. induction s as [|y s IHs]; [reflexivity|]. cbn [flat_map]. rewrite !zsum_app, IHs.
    assert (E : zsum (map (fun x => Z.of_nat (List.length (filter (P x y) (a :: l)))) (seq 0 nx)) =
      (zsum (map (fun x => if P x y a then 1 else 0) (seq 0 nx)) + zsum (map (fun x => Z.of_nat (List.length (filter (P x y) l))) (seq 0 nx)))%Z).
    { generalize (seq 0 nx). intros t. induction t as [|x t IHt]; [reflexivity|]. cbn [map]. rewrite !zcons, IHt. cbn [filter]. destruct (P x y a); cbn [List.length]; lia. }
    rewrite E. lia.
Qed.
(* The numbers of particles in the cells add up to the number of particles inside the bounds. *)
Theorem C127_counts_partial rows w x0 x1 y0 y1 old : (4 <= w)%nat -> (3 # 20) <= x1 - x0 -> (3 # 20) <= y1 - y0 ->
  (forall r, In r rows -> List.length r = w /\ x0 <= num 0 r /\ y0 <= num 1 r) ->
  exists f, create_field (concat rows) x0 x1 y0 y1 (List.length rows) w old = Some f /\
    fold_right Z.add 0%Z (map c_phi (fl_data f)) = Z.of_nat (List.length (filter (inside x0 y0 (x1 - x0) (y1 - y0)) rows)).
Proof.
  intros Hw Hx Hy H. destruct (field_good rows w x0 x1 y0 y1 old (fun r Hr => proj1 (H r Hr)) Hw Hx Hy (fun r Hr => proj2 (H r Hr))) as (f & Ef & Gf).
  exists f. split; [exact Ef|]. destruct Gf as (nx & ny & _ & _ & Hnx & Hny & _ & _ & _ & _ & R1 & R2 & R3 & R4 & Len & C).
  set (wx := (x1 - x0) / inject_Z (Z.of_nat nx)) in *. set (wy := (y1 - y0) / inject_Z (Z.of_nat ny)) in *.
  assert (Hwx : 0 < wx) by (assert (0 < res) by reflexivity; lra). assert (Hwy : 0 < wy) by (assert (0 < res) by reflexivity; lra).
  assert (E : map c_phi (fl_data f) = flat_map (fun y => map (fun x => Z.of_nat (List.length (filter (fun r => in_bin x0 wx x (num 0 r) && in_bin y0 wy y (num 1 r)) rows))) (seq 0 nx)) (seq 0 ny)).
  { apply (nth_ext _ _ 0%Z 0%Z). { rewrite map_length, length_flat. exact Len. }
    rewrite map_length, Len. intros k Hk. assert (Ek : k = (k / nx * nx + k mod nx)%nat) by (rewrite Nat.mul_comm; apply Nat.div_mod; lia).
    assert (Hm : (k mod nx < nx)%nat) by (apply Nat.mod_upper_bound; lia). assert (Hd : (k / nx < ny)%nat) by (apply Nat.div_lt_upper_bound; lia).
    destruct (C _ _ Hm Hd) as (c & Ec & Ep & _). rewrite <- Ek in Ec.
    rewrite (nth_error_nth _ _ 0%Z (map_nth_error c_phi _ _ Ec)), Ep. symmetry. apply nth_error_nth. rewrite Ek at 1. rewrite nth_error_flat by assumption. reflexivity. }
  fold (zsum (map c_phi (fl_data f))). rewrite E.
  rewrite (zsum_cells (fun x y r => in_bin x0 wx x (num 0 r) && in_bin y0 wy y (num 1 r)) (fun r => if inside x0 y0 (x1 - x0) (y1 - y0) r then 1%Z else 0%Z)).
  - clear. induction rows as [|r rows IH]; [reflexivity|]. cbn [map filter]. rewrite zcons, IH. destruct (inside _ _ _ _ r); cbn [List.length]; lia.
  - intros r _. assert (Fx := b2n_bins x0 wx (num 0 r) nx Hwx). assert (Fy := b2n_bins y0 wy (num 1 r) ny Hwy).
    assert (Ex : inject_Z (Z.of_nat nx) * wx == x1 - x0) by (unfold wx; apply width_all; lia). assert (Ey : inject_Z (Z.of_nat ny) * wy == y1 - y0) by (unfold wy; apply width_all; lia).
    rewrite (Qltb_comp (num 0 r) (x0 + inject_Z (Z.of_nat nx) * wx) (num 0 r) (x0 + (x1 - x0))) in Fx by (try reflexivity; rewrite Ex; reflexivity).
    rewrite (Qltb_comp (num 1 r) (y0 + inject_Z (Z.of_nat ny) * wy) (num 1 r) (y0 + (y1 - y0))) in Fy by (try reflexivity; rewrite Ey; reflexivity).
    unfold inside. set (bx := Qle_bool x0 (num 0 r) && Qltb (num 0 r) (x0 + (x1 - x0))) in *. set (by_ := Qle_bool y0 (num 1 r) && Qltb (num 1 r) (y0 + (y1 - y0))) in *. clearbody bx by_.
    transitivity ((if bx then 1 else 0) * (if by_ then 1 else 0))%Z; [|now destruct bx, by_]. rewrite <- Fx, <- Fy. clear.
    generalize (seq 0 ny). intros s. induction s as [|y s IHs]; [cbn; lia|]. cbn [flat_map fold_right]. rewrite zsum_app, IHs.
    assert (E : zsum (map (fun x => if in_bin x0 wx x (num 0 r) && in_bin y0 wy y (num 1 r) then 1 else 0) (seq 0 nx))%Z =
       ((if in_bin y0 wy y (num 1 r) then 1 else 0) * fold_right (fun i s => (if in_bin x0 wx i (num 0 r) then 1 else 0) + s) 0 (seq 0 nx))%Z).
    { generalize (seq 0 nx). intros t. induction t as [|x t IHt]; [cbn; lia|]. cbn [map fold_right]. rewrite !zcons, IHt. destruct (in_bin x0 wx x _), (in_bin y0 wy y _); cbn [andb]; lia. }
    rewrite E. lia.
Qed.
Print Assumptions C127_counts_partial.
Example C127_counts_case : option_map (fun f => map c_phi (fl_data f)) (create_field (concat [[0; 0; 1; 2]; [1#20; 1#20; 3; 4]; [1#5; 0; 5; 6]]) 0 (2#5) 0 (1#5) 3 4 no_field) = Some [2%Z; 1%Z].
Proof. vm_compute. reflexivity. Qed.

(* In three dimensions the third coordinate of the position and the first of the velocity are taken for the velocity: here a particle at rest. *)
Theorem C127_dimensions_refuted x y z : 0 <= x -> x < (3 # 20) -> 0 <= y -> y < (3 # 20) -> exists p vx vy,
  field_files [[x; y; z; 0; 0; 0]] 0 (3 # 20) 0 (3 # 20) 6 no_field = Some [[(p, (vx, vy))]] /\ vx == z /\ vy == 0.
Proof.
  intros A B C D. assert (T : forall a, 0 <= a -> a < (3 # 20) -> Qtrunc ((a - 0) / ((((3 # 20) - 0)) / inject_Z 1)) = 0%Z).
  { intros a Ha Hb. apply Z.eqb_eq. refine (eq_trans (bin_is 0 (((3 # 20) - 0) / inject_Z 1) a 0 _ Ha) _); [reflexivity|].
    unfold in_bin. change (Z.of_nat 0) with 0%Z. rewrite andb_true_iff. split.
    - destruct (Qleb_spec (0 + inject_Z 0 * (((3 # 20) - 0) / inject_Z 1)) a) as [K|K]; [reflexivity|]. exfalso. apply K. change (0 + inject_Z 0 * (((3 # 20) - 0) / inject_Z 1) <= a). change (inject_Z 0) with 0. rewrite Qmult_0_l. lra.
    - destruct (Qltb_spec a (0 + inject_Z (0 + 1) * (((3 # 20) - 0) / inject_Z 1))) as [K|K]; [reflexivity|]. exfalso. apply K. assert (E : 0 + inject_Z (0 + 1) * (((3 # 20) - 0) / inject_Z 1) == 3 # 20) by reflexivity. rewrite E. exact Hb. }
  unfold field_files. cbn [Nat.eqb]. change (Nat.div (List.length [x; y; z; 0; 0; 0]) 6) with 1%nat. unfold create_field.
  change (Qtrunc (((3 # 20) - 0) / res)) with 1%Z. cbn [Z.ltb Z.compare Pos.compare Pos.compare_cont orb]. unfold grid_new. cbn [Z.leb Z.compare orb]. cbn [seq places nth_error Nat.mul Nat.add].
  unfold bin_data. cbn [g_x0 g_x1 g_y0 g_y1 g_bins]. change (Qle_bool (3 # 20) 0) with false. cbn [orb List.length seq map combine tally]. unfold grid_ix. cbn [fst snd g_x0 g_x1 g_y0 g_y1 g_nx g_ny].
  rewrite (T x A B), (T y C D). change (Z.to_nat (1 * 1)) with 1%nat. change (Z.to_nat 1) with 1%nat. cbn -[Qdiv Qmult Qplus Qminus Qtrunc]. unfold csv. cbn -[Qdiv Qmult Qplus Qminus Qtrunc]. change (Pos.to_nat 1) with 1%nat. cbn -[Qdiv Qmult Qplus Qminus Qtrunc].
  eexists. eexists. eexists. split; [reflexivity|]. split; field.
Qed.
Print Assumptions C127_dimensions_refuted.
Example C127_dimensions_case : field_files [[1#20; 0; 7; 0; 0; 0]] 0 (3 # 20) 0 (3 # 20) 6 no_field = Some [[(0 # 20, 0 # 20, (7, 0))]].
Proof. vm_compute. reflexivity. Qed.
(* The number reported as the mean speed of a cell is not a mean: for n particles with speed v in the cell it is v divided by the root of n. *)
Theorem C127_speed_refuted x0 y0 v n : (0 < n)%nat ->
  exists c, cell_of (concat (repeat [x0; y0; v; 0] n)) 4 (map Z.of_nat (seq 0 n)) = Some c /\ c_speed2 c * inject_Z (Z.of_nat n) == v * v.
Proof.
  intros Hn. unfold cell_of. assert (L : forall r, In r (repeat [x0; y0; v; 0] n) -> List.length r = 4%nat) by (intros r Hr; apply repeat_spec in Hr; now subst).
  destruct (add_vel_rows 4 _ L ltac:(lia) (seq 0 n)) with (s := 0) (ax := 0) (ay := 0) as (s & ax & ay & Ea & Es & _).
  { intros i Hi. apply in_seq in Hi. rewrite repeat_length. lia. }
  rewrite Ea. eexists. split; [reflexivity|]. cbn [c_speed2]. rewrite map_length, seq_length. destruct (Z.ltb_spec 0 (Z.of_nat n)); [|lia].
  assert (E : map (fun i => nth i (repeat [x0; y0; v; 0] n) []) (seq 0 n) = repeat [x0; y0; v; 0] n).
  { transitivity (map (fun r => r) (repeat [x0; y0; v; 0] n)); [|apply map_id]. rewrite <- (map_nth_seq (fun r => r) (repeat [x0; y0; v; 0] n) []). now rewrite repeat_length. }
  rewrite E in Es. assert (S : forall m, sum (fun r => num 2 r * num 2 r + num 3 r * num 3 r) (repeat [x0; y0; v; 0] m) == inject_Z (Z.of_nat m) * (v * v)).
  { induction m as [|m IH]; [cbn; ring|]. cbn [repeat sum fold_right] in *. rewrite IH. unfold num. cbn [nth]. replace (Z.of_nat (Datatypes.S m)) with (Z.of_nat m + 1)%Z by lia. rewrite inject_Z_plus. change (inject_Z 1) with 1. ring. }
  rewrite Es, S. assert (~ inject_Z (Z.of_nat n) == 0). { change 0 with (inject_Z 0). rewrite inject_Z_injective. lia. } field. assumption.
Qed.
Print Assumptions C127_speed_refuted.
(* Without the option snapshot, the field is made of another file than the picture, unless the data are called data. *)
Theorem C127_file_refuted dir sub name : name <> "data"%string -> field_file dir sub name <> picture_file dir sub name.
Proof.
  intros H E. apply H. unfold field_file, picture_file in E.
  assert (A : forall a b c : string, ((a ++ b) ++ c)%string = (a ++ (b ++ c))%string) by (intros a b c; induction a as [|x a IH]; cbn; [reflexivity|now rewrite IH]).
  assert (C : forall a b c : string, (a ++ b)%string = (a ++ c)%string -> b = c) by (intros a; induction a as [|x a IH]; intros b c He; [exact He|]; apply IH; cbn in He; now injection He).
  rewrite !A in E. apply C in E. apply (C "/"%string) in E. apply C in E. apply (C "/"%string) in E. apply C in E. apply (C "/"%string) in E.
  assert (Len : forall a b, String.length (a ++ b) = (String.length a + String.length b)%nat) by (intros a b; induction a as [|x a IH]; cbn; [reflexivity|now rewrite IH]).
  destruct name as [|c0 [|c1 [|c2 [|c3 [|c4 name]]]]]; cbn in E; try discriminate.
  - injection E as <- <- <- <-. reflexivity.
  - injection E as _ _ _ _ _ E. apply (f_equal String.length) in E. rewrite Len in E. cbn in E. lia.
Qed.
Print Assumptions C127_file_refuted.
Example C127_file_case : field_file "RunData" "general" "Pos-1" = "RunData/general/Pos-1/data.csv"%string /\ picture_file "RunData" "general" "Pos-1" = "RunData/general/Pos-1/Pos-1.csv"%string.
Proof. split; reflexivity. Qed.
