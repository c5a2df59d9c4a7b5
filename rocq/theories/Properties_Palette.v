(* Claims about drawing pictures: C108 (what a pixel shows), C109 (circles),
   C110 (sub-palettes), C111 (lines), C112 (references to the picture). *)
From Verif Require Import Lib Model_Geometry Model_Bmp Model_Palette Spec_Palette.
From Coq Require Import ZifyBool ZifyNat.
Open Scope Z_scope.

(* ---- C108 *)
Lemma drawn_app l l' im : fold_left image_set (l ++ l') im = fold_left image_set l' (fold_left image_set l im).
Proof. apply fold_left_app. Qed.

Lemma image_set_eq im d x y : image_set im d x y =
  if (x =? d_x d) && (y =? d_y d) then blend (im x y) (d_col d) (d_depth d) else im x y.
Proof. reflexivity. Qed.

(* what a pixel holds after some draws: nothing drawn, or the draw on top *)
Lemma drawn_spec l x y :
  (drawn l x y = None /\ forall d, In d l -> ~ (d_x d = x /\ d_y d = y)) \/
  exists k d, on_top l x y k d /\ drawn l x y = Some (d_col d, d_depth d).
Proof.
  unfold drawn. induction l as [|e l IH] using rev_ind.
  - left. split; [reflexivity|]. intros d [].
  - rewrite drawn_app. cbn [fold_left]. rewrite image_set_eq.
    destruct ((x =? d_x e) && (y =? d_y e)) eqn:E.
    + assert (EX : d_x e = x) by lia. assert (EY : d_y e = y) by lia.
      destruct IH as [[N F]|(k & d & T & V)].
      * rewrite N. right. exists (length l), e. split; [|reflexivity].
        unfold on_top. split; [rewrite nth_error_app2, Nat.sub_diag by lia; reflexivity|].
        split; [exact EX|]. split; [exact EY|]. intros k' d' E' X Y. split; intros L.
        -- exfalso. rewrite nth_error_app1 in E' by lia. apply (F d').
           ++ eapply nth_error_In; exact E'.
           ++ split; assumption.
        -- exfalso. assert (k' < length (l ++ [e]))%nat by (apply nth_error_Some; congruence).
           rewrite app_length in *. simpl in *. lia.
      * rewrite V. right. cbn [blend].
        destruct T as (T1 & T2 & T3 & T4).
        assert (KL : (k < length l)%nat) by (apply nth_error_Some; congruence).
        destruct (Qltb_spec (d_depth e) (d_depth d)) as [L|NL].
        -- exists (length l), e. split; [|reflexivity].
           split; [rewrite nth_error_app2, Nat.sub_diag by lia; reflexivity|].
           split; [exact EX|]. split; [exact EY|]. intros k' d' E' X Y. split; intros LK.
           ++ rewrite nth_error_app1 in E' by lia. destruct (T4 k' d' E' X Y) as [A B].
              destruct (Nat.lt_trichotomy k' k) as [C|[C|C]].
              ** specialize (A C). lra.
              ** subst k'. assert (d' = d) by congruence. subst. lra.
              ** specialize (B C). lra.
           ++ exfalso. assert (k' < length (l ++ [e]))%nat by (apply nth_error_Some; congruence).
              rewrite app_length in *. simpl in *. lia.
        -- exists k, d. split; [|reflexivity].
           split; [rewrite nth_error_app1 by lia; exact T1|].
           split; [exact T2|]. split; [exact T3|]. intros k' d' E' X Y.
           destruct (Nat.lt_ge_cases k' (length l)) as [C|C].
           ++ rewrite nth_error_app1 in E' by lia. exact (T4 k' d' E' X Y).
           ++ rewrite nth_error_app2 in E' by lia.
              destruct (k' - length l)%nat as [|q] eqn:Q; simpl in E'; [|destruct q; discriminate].
              injection E' as <-. split; intros LK; [lia|]. lra.
    + assert (NE : ~ (d_x e = x /\ d_y e = y)) by lia.
      destruct IH as [[N F]|(k & d & T & V)].
      * left. split; [exact N|]. intros d Hin. apply in_app_or in Hin. destruct Hin as [Hin|[<-|[]]]; auto.
      * right. exists k, d. split; [|exact V]. destruct T as (T1 & T2 & T3 & T4).
        assert (KL : (k < length l)%nat) by (apply nth_error_Some; congruence).
        split; [rewrite nth_error_app1 by lia; exact T1|].
        split; [exact T2|]. split; [exact T3|]. intros k' d' E' X Y.
        destruct (Nat.lt_ge_cases k' (length l)) as [C|C].
        -- rewrite nth_error_app1 in E' by lia. exact (T4 k' d' E' X Y).
        -- rewrite nth_error_app2 in E' by lia.
           destruct (k' - length l)%nat as [|q] eqn:Q; simpl in E'; [|destruct q; discriminate].
           injection E' as <-. exfalso. apply NE. auto.
Qed.

Lemma on_top_unique l x y k d k' d' : on_top l x y k d -> on_top l x y k' d' -> k = k' /\ d = d'.
Proof.
  intros (A1 & A2 & A3 & A4) (B1 & B2 & B3 & B4).
  destruct (A4 k' d' B1 B2 B3) as [P Q]. destruct (B4 k d A1 A2 A3) as [P' Q'].
  destruct (Nat.lt_trichotomy k k') as [C|[C|C]].
  - specialize (Q C). specialize (P' C). lra.
  - subst. split; congruence.
  - specialize (P C). specialize (Q' C). lra.
Qed.

Lemma to_bmp_pixel l w h x y : 0 < w -> 0 < h -> 0 <= x < w -> 0 <= y < h ->
  width (to_bmp l w h) = w /\ height (to_bmp l w h) = h /\
  get_pixel (to_bmp l w h) x y = match drawn l x y with Some (c, _) => c | None => mkPx 0 0 0 255 end.
Proof.
  intros W H X Y. unfold to_bmp, set_bmp, set_size.
  replace ((w <=? 0) || (h <=? 0)) with false by lia. cbn [width height].
  rewrite !Z.eqb_refl. cbn [andb width height]. split; [reflexivity|]. split; [reflexivity|].
  unfold get_pixel. cbn [width height pixels].
  replace (w <=? x) with false by lia. replace (x <? 0) with false by lia.
  replace (h <=? y) with false by lia. replace (y <? 0) with false by lia.
  replace ((0 <=? x) && (x <? w) && (0 <=? y) && (y <? h)) with true by lia. reflexivity.
Qed.

(* C108: a pixel of the file shows the colour of the least depth, the first
   one that was drawn if depths are equal, and black where nothing was
   drawn. *)
Theorem C108_shown l w h x y : 0 < w -> 0 < h -> 0 <= x < w -> 0 <= y < h ->
  width (to_bmp l w h) = w /\ height (to_bmp l w h) = h /\
  (forall k d, on_top l x y k d -> get_pixel (to_bmp l w h) x y = d_col d) /\
  ((exists d, In d l /\ d_x d = x /\ d_y d = y) <-> (exists k d, on_top l x y k d)) /\
  ((forall d, In d l -> ~ (d_x d = x /\ d_y d = y)) ->
     get_pixel (to_bmp l w h) x y = mkPx 0 0 0 255).
Proof.
  intros W H X Y. destruct (to_bmp_pixel l w h x y W H X Y) as (A & B & C).
  split; [exact A|]. split; [exact B|]. rewrite C. clear A B C.
  destruct (drawn_spec l x y) as [[N F]|(k & d & T & V)].
  - rewrite N. split; [|split].
    + intros k d (T1 & T2 & T3 & _). exfalso. apply (F d); [eapply nth_error_In; exact T1|auto].
    + split.
      * intros (d & Hin & E). exfalso. exact (F d Hin E).
      * intros (k & d & T1 & T2 & T3 & _). exists d. split; [eapply nth_error_In; exact T1|auto].
    + reflexivity.
  - rewrite V. split; [|split].
    + intros k' d' T'. destruct (on_top_unique _ _ _ _ _ _ _ T T') as [_ <-]. reflexivity.
    + split; [intros _; eauto|].
      intros (k' & d' & T1 & T2 & T3 & _). exists d'. split; [eapply nth_error_In; exact T1|auto].
    + intros F. exfalso. destruct T as (T1 & T2 & T3 & _).
      apply (F d); [eapply nth_error_In; exact T1|auto].
Qed.
Print Assumptions C108_shown.

Lemma in_zrange lo hi k : In k (zrange lo hi) <-> lo <= k <= hi.
Proof.
  unfold zrange. rewrite in_map_iff. split.
  - intros (n & <- & Hin). apply in_seq in Hin. lia.
  - intros K. exists (Z.to_nat (k - lo)). split; [lia|]. apply in_seq. lia.
Qed.

Lemma in_set_px p x y c d e : In e (set_px p x y c d) <->
  (0 <= x + o0 p < pw p /\ 0 <= o3 p - y - 1 < ph p /\ e = mkDraw (x + o0 p) (o3 p - y - 1) c d).
Proof.
  unfold set_px. destruct (_ || _) eqn:E.
  - split; [intros []|]. intros (A & B & _). lia.
  - split.
    + intros [<-|[]]. repeat split; lia.
    + intros (_ & _ & ->). left. reflexivity.
Qed.

(* coverPalette draws the pixels of the palette, and no others *)
Theorem C108_cover p c d e : part_of_picture p ->
  In e (cover p c d) <->
  (o0 p <= d_x e < o1 p /\ o2 p <= d_y e < o3 p /\ d_col e = c /\ d_depth e = d).
Proof.
  intros ((A & B) & C & (D & E) & F). unfold cover. rewrite in_flat_map. split.
  - intros (y & Y & Hin). apply in_zrange in Y. apply in_flat_map in Hin. destruct Hin as (x & X & Hin).
    apply in_zrange in X. apply in_set_px in Hin. destruct Hin as (P & Q & ->).
    unfold get_width, get_height in *. cbn [d_x d_y d_col d_depth]. repeat split; lia.
  - intros (X & Y & <- & <-). exists (o3 p - 1 - d_y e). split; [apply in_zrange; unfold get_height; lia|].
    apply in_flat_map. exists (d_x e - o0 p). split; [apply in_zrange; unfold get_width; lia|].
    apply in_set_px. split; [lia|]. split; [lia|]. destruct e as [ex ey ec ed]; cbn [d_x d_y d_col d_depth] in *.
    f_equal; lia.
Qed.
Print Assumptions C108_cover.

(* Whatever is drawn is drawn inside of the picture, also by palettes that
   reach outside of it. *)
Definition inside_picture (p : palette) (l : list draw) : Prop :=
  forall e, In e l -> 0 <= d_x e < pw p /\ 0 <= d_y e < ph p.

Lemma inside_set_px p x y c d : inside_picture p (set_px p x y c d).
Proof. intros e Hin. apply in_set_px in Hin. destruct Hin as (A & B & ->). auto. Qed.
Lemma inside_app p l l' : inside_picture p l -> inside_picture p l' -> inside_picture p (l ++ l').
Proof. intros A B e Hin. apply in_app_or in Hin. destruct Hin; auto. Qed.
Lemma inside_nil p : inside_picture p [].
Proof. intros e []. Qed.
Lemma inside_flat_map {A} p (f : A -> list draw) l : (forall a, inside_picture p (f a)) ->
  inside_picture p (flat_map f l).
Proof. intros F e Hin. apply in_flat_map in Hin. destruct Hin as (a & _ & Hin). exact (F a e Hin). Qed.
Lemma inside_line_px p s x y c d : inside_picture p (line_px p s x y c d).
Proof. unfold line_px. destruct s; apply inside_set_px. Qed.
Lemma inside_loop p s c d g n : forall x i, inside_picture p (line_loop p s n x i g c d).
Proof.
  induction n as [|n IH]; intros x i; [apply inside_nil|]. cbn [line_loop].
  repeat apply inside_app; try apply inside_line_px. apply IH.
Qed.

Theorem C108_inside p :
  (forall c d e, In e (cover p c d) -> 0 <= d_x e < pw p /\ 0 <= d_y e < ph p) /\
  (forall x y r f wrap d l e, circle p x y r f wrap d = Some l -> In e l ->
     0 <= d_x e < pw p /\ 0 <= d_y e < ph p) /\
  (forall x0 y0 x1 y1 c d e, In e (line p x0 y0 x1 y1 c d) -> 0 <= d_x e < pw p /\ 0 <= d_y e < ph p).
Proof.
  split; [|split].
  - intros c d. change (inside_picture p (cover p c d)). unfold cover.
    apply inside_flat_map. intros y. apply inside_flat_map. intros x. apply inside_set_px.
  - intros x y r f wrap d l e E. revert e. change (inside_picture p l).
    unfold circle in E. destruct (space p) as [[bw bh]|]; [|discriminate].
    cbv zeta in E. assert (E' : forall A (a b : A), Some a = Some b -> a = b) by (intros A a b Q; congruence).
    apply E' in E. rewrite <- E. clear E E'.
    apply inside_flat_map. intros dy. apply inside_flat_map. intros dx.
    destruct (Qle_bool _ _); [|apply inside_nil].
    match goal with |- inside_picture _ (match ?o with Some _ => _ | None => _ end) => destruct o end; [|apply inside_nil].
    match goal with |- inside_picture _ (if ?b then _ else _) => destruct b end; [apply inside_set_px|].
    destruct wrap; [apply inside_set_px|apply inside_nil].
  - intros x0 y0 x1 y1 c d. change (inside_picture p (line p x0 y0 x1 y1 c d)).
    unfold line. cbv zeta. destruct (Z.abs (x1 - x0) <? Z.abs (y1 - y0)).
    + destruct (y1 <? y0); repeat apply inside_app; try apply inside_line_px; apply inside_loop.
    + destruct (x1 <? x0); repeat apply inside_app; try apply inside_line_px; apply inside_loop.
Qed.
Print Assumptions C108_inside.

(* Covering a palette again, at the same (default) depth, changes nothing:
   the colour that was there stays. *)
Theorem C108_cover_again : exists p, part_of_picture p /\ pw p = 4 /\ ph p = 4 /\
  forall x y, 0 <= x < 4 -> 0 <= y < 4 ->
  get_pixel (to_bmp (cover p (mkPx 0 0 0 0) 1000 ++ cover p (mkPx 255 255 255 0) 1000) 4 4) x y
    = mkPx 0 0 0 0.
Proof.
  exists (mkPal 0 4 0 4 4 4 None). split; [unfold part_of_picture; simpl; lia|].
  split; [reflexivity|]. split; [reflexivity|]. intros x y X Y.
  assert (x = 0 \/ x = 1 \/ x = 2 \/ x = 3) as [ -> |[ -> |[ -> | -> ]]] by lia;
  assert (y = 0 \/ y = 1 \/ y = 2 \/ y = 3) as [ -> |[ -> |[ -> | -> ]]] by lia; vm_compute; reflexivity.
Qed.
Print Assumptions C108_cover_again.

Example C108_case :
  let p := mkPal 0 2 0 2 2 2 None in
  let l := cover p (mkPx 9 9 9 0) 1000 ++ set_px p 0 0 (mkPx 1 1 1 0) 5 ++ set_px p 0 0 (mkPx 2 2 2 0) 3
           ++ set_px p 0 0 (mkPx 3 3 3 0) 3 in
  part_of_picture p /\ get_pixel (to_bmp l 2 2) 0 1 = mkPx 2 2 2 0 /\
  get_pixel (to_bmp l 2 2) 1 0 = mkPx 9 9 9 0 /\ get_pixel (to_bmp [] 2 2) 1 0 = mkPx 0 0 0 255 /\
  on_top l 0 1 5 (mkDraw 0 1 (mkPx 2 2 2 0) 3).
Proof.
  cbv zeta. split; [unfold part_of_picture; simpl; lia|].
  split; [vm_compute; reflexivity|]. split; [vm_compute; reflexivity|]. split; [vm_compute; reflexivity|].
  match goal with |- on_top ?l _ _ _ _ => let g := eval vm_compute in l in change l with g end.
  split; [reflexivity|]. split; [reflexivity|]. split; [reflexivity|].
  intros k' d' E X Y. destruct k' as [|[|[|[|[|[|[|k']]]]]]]; simpl in E; try discriminate;
    try (destruct k'; discriminate); injection E as <-; simpl in X, Y; try lia; simpl; split; intros; try lia; unfold Qlt, Qle; simpl; lia.
Qed.

(* ---- C109 *)
Lemma sq_bound (t s r : Q) : (0 <= r)%Q -> (0 <= s)%Q -> (t * t + s <= r * r)%Q -> (- r <= t <= r)%Q.
Proof. intros R S H. split; nra. Qed.

Lemma div_back (a b w : Q) : (0 < b)%Q -> (0 < w)%Q -> (a == (a * b / w) * (w / b))%Q.
Proof. intros B W. field. split; lra. Qed.

Lemma inject_pos n : 0 < n -> (0 < inject_Z n)%Q.
Proof. intros H. change 0%Q with (inject_Z 0). rewrite <- Zlt_Qlt. exact H. Qed.

Lemma ratio_pos (a b : Q) : (0 < a)%Q -> (0 < b)%Q -> (0 < a / b)%Q.
Proof. intros A B. unfold Qdiv. apply Qmult_lt_0_compat; [exact A|]. apply Qinv_lt_0_compat. exact B. Qed.

Lemma disc_range (dx : Z) (bw r s : Q) wx : 0 < wx -> (0 < bw)%Q -> (0 <= r)%Q -> (0 <= s)%Q ->
  (Qsqr (inject_Z dx * bw / inject_Z wx) + s <= Qsqr r)%Q ->
  (- (r * (inject_Z wx / bw)) <= inject_Z dx <= r * (inject_Z wx / bw))%Q.
Proof.
  intros W B R S H. assert (W' := inject_pos _ W). unfold Qsqr in H.
  apply sq_bound in H; [|assumption|assumption].
  assert (K := ratio_pos _ _ W' B). assert (E := div_back (inject_Z dx) bw (inject_Z wx) B W').
  set (t := (inject_Z dx * bw / inject_Z wx)%Q) in *. set (k := (inject_Z wx / bw)%Q) in *.
  clearbody t k. rewrite E. nra.
Qed.

Lemma to_ceiling dx q : (- q <= inject_Z dx <= q)%Q -> - Qceiling q <= dx <= Qceiling q.
Proof.
  intros [A B]. assert (C := Qle_ceiling q). split.
  - assert (D : (inject_Z (- Qceiling q) <= inject_Z dx)%Q) by (rewrite inject_Z_opp; lra).
    rewrite <- Zle_Qle in D. exact D.
  - assert (D : (inject_Z dx <= inject_Z (Qceiling q))%Q) by lra. rewrite <- Zle_Qle in D. exact D.
Qed.

Lemma pixel_unique n b x u u' : pixel_of n b x u -> pixel_of n b x u' -> u = u'.
Proof.
  intros [A B] [A' B'].
  assert (inject_Z u < inject_Z (u' + 1))%Q by (rewrite inject_Z_plus; change (inject_Z 1) with 1%Q; lra).
  assert (inject_Z u' < inject_Z (u + 1))%Q by (rewrite inject_Z_plus; change (inject_Z 1) with 1%Q; lra).
  rewrite <- Zlt_Qlt in *. lia.
Qed.

Lemma trunc_pixel n b x : (0 < n) -> (0 < b)%Q -> (0 <= x)%Q -> pixel_of n b x (Qtrunc (x * (inject_Z n / b))).
Proof.
  intros N B X. assert (N' := inject_pos _ N). assert (K := ratio_pos _ _ N' B).
  assert (P : (0 <= x * (inject_Z n / b))%Q) by (apply Qmult_le_0_compat; lra).
  unfold pixel_of, Qtrunc. destruct (Qltb_spec (x * (inject_Z n / b)) 0) as [L|L]; [lra|].
  assert (A := Qfloor_le (x * (inject_Z n / b))). assert (C := Qlt_floor (x * (inject_Z n / b))).
  rewrite inject_Z_plus in C. change (inject_Z 1) with 1%Q in C.
  assert (E : (x * inject_Z n / b == x * (inject_Z n / b))%Q) by (field; lra).
  split; lra.
Qed.

Lemma pixel_range n b x u : 0 < n -> (0 < b)%Q -> (0 <= x < b)%Q -> pixel_of n b x u -> 0 <= u < n.
Proof.
  intros N B [X1 X2] [A C]. assert (N' := inject_pos _ N). assert (K := ratio_pos _ _ N' B).
  assert (E : (x * inject_Z n / b == x * (inject_Z n / b))%Q) by (field; lra).
  assert (E2 : (inject_Z n == b * (inject_Z n / b))%Q) by (field; lra).
  set (k := (inject_Z n / b)%Q) in *.
  assert (P1 : (0 <= x * k)%Q) by nra.
  assert (P2 : (x * k < inject_Z n)%Q) by (rewrite E2; nra).
  split.
  - assert (inject_Z 0 < inject_Z (u + 1))%Q by (rewrite inject_Z_plus; change (inject_Z 0) with 0%Q; change (inject_Z 1) with 1%Q; lra).
    rewrite <- Zlt_Qlt in H. lia.
  - assert (inject_Z u < inject_Z n)%Q by lra. rewrite <- Zlt_Qlt in H. exact H.
Qed.

Lemma wrap1_mod n u : 0 < n -> - n <= u < 2 * n -> wrap1 n u = u mod n.
Proof.
  intros N U. unfold wrap1. destruct (n <=? u) eqn:E.
  - replace (u - n <? 0) with false by lia.
    rewrite <- (Z.mod_small (u - n) n) by lia.
    rewrite <- (Z_mod_plus_full (u - n) 1 n). f_equal. lia.
  - destruct (u <? 0) eqn:E2.
    + rewrite <- (Z.mod_small (u + n) n) by lia. rewrite <- (Z_mod_plus_full u 1 n). f_equal. lia.
    + symmetry. apply Z.mod_small. lia.
Qed.

Lemma ceiling_small q : (Qceiling q <? 3) = Qle_bool q 2.
Proof.
  assert (A := Qle_ceiling q). assert (B := Qceiling_lt q).
  destruct (Qleb_spec q 2) as [H|H].
  - apply Z.ltb_lt. assert (inject_Z (Qceiling q - 1) < inject_Z 2)%Q by (change (inject_Z 2) with 2%Q; lra).
    rewrite <- Zlt_Qlt in H0. lia.
  - apply Z.ltb_ge. destruct (Z.le_gt_cases 3 (Qceiling q)) as [|C]; [assumption|]. exfalso. apply H.
    assert (inject_Z (Qceiling q) <= inject_Z 2)%Q by (rewrite <- Zle_Qle; lia).
    change (inject_Z 2) with 2%Q in *. lra.
Qed.

(* C109: the pixels of a circle. *)
Theorem C109_circle_partial p bw bh x y r f (wrap : bool) dep l pxx pyy :
  part_of_picture p -> space p = Some (bw, bh) -> (0 < bw)%Q -> (0 < bh)%Q ->
  (0 <= x < bw)%Q -> (0 <= y < bh)%Q -> (0 <= r <= bw)%Q -> (r <= bh)%Q ->
  circle p x y r f wrap dep = Some l ->
  pixel_of (get_width p) bw x pxx -> pixel_of (get_height p) bh y pyy ->
  forall e, In e l <->
  exists dx dy, in_disc p bw bh r dx dy /\
  let u := pxx + dx in
  let v := pyy + dy in
  let small := (r * (inject_Z (get_width p) / bw) <= 2 \/ r * (inject_Z (get_height p) / bh) <= 2)%Q in
  (small -> f 0%Q 0%Q = Some (d_col e)) /\
  (~ small -> f ((inject_Z u / inject_Z (get_width p + 1) * bw - x) / r)%Q
                ((inject_Z v / inject_Z (get_height p + 1) * bh - y) / r)%Q = Some (d_col e)) /\
  ((0 <= u < get_width p /\ 0 <= v < get_height p /\
    d_x e = o0 p + u /\ d_y e = o3 p - 1 - v /\ d_depth e = dep) \/
   (wrap = true /\ ~ (0 <= u < get_width p /\ 0 <= v < get_height p) /\
    d_x e = o0 p + u mod get_width p /\ d_y e = o3 p - 1 - v mod get_height p /\ d_depth e = 0%Q)).
Proof.
  intros Hp HS BW BH HX HY HR HR2 E PX PY e.
  unfold circle in E. rewrite HS in E. cbv zeta in E.
  assert (SI : forall A (a b : A), Some a = Some b -> a = b) by (intros A a b Q; congruence).
  apply SI in E. clear SI. subst l.
  set (wx := get_width p) in *. set (wy := get_height p) in *.
  destruct Hp as ((A1 & A2) & A3 & (A4 & A5) & A6).
  assert (WX : 0 < wx) by (unfold wx, get_width; lia). assert (WY : 0 < wy) by (unfold wy, get_height; lia).
  assert (WX' := inject_pos _ WX). assert (WY' := inject_pos _ WY).
  assert (KX := ratio_pos _ _ WX' BW). assert (KY := ratio_pos _ _ WY' BH).
  assert (T1 := trunc_pixel wx bw x WX BW (proj1 HX)). assert (T2 := trunc_pixel wy bh y WY BH (proj1 HY)).
  rewrite (pixel_unique _ _ _ _ _ T1 PX), (pixel_unique _ _ _ _ _ T2 PY). clear T1 T2.
  assert (RX := pixel_range wx bw x pxx WX BW HX PX). assert (RY := pixel_range wy bh y pyy WY BH HY PY).
  assert (DE : forall dx dy, (Qsqr (inject_Z dx * (1 / (inject_Z wx / bw))) + Qsqr (inject_Z dy * (1 / (inject_Z wy / bh))) <= Qsqr r)%Q
             <-> in_disc p bw bh r dx dy).
  { intros dx dy. unfold in_disc. fold wx wy.
    assert (E1 : (inject_Z dx * (1 / (inject_Z wx / bw)) == inject_Z dx * bw / inject_Z wx)%Q) by (field; lra).
    assert (E2 : (inject_Z dy * (1 / (inject_Z wy / bh)) == inject_Z dy * bh / inject_Z wy)%Q) by (field; lra).
    unfold Qsqr. rewrite E1, E2. reflexivity. }
  assert (DR : forall dx dy, in_disc p bw bh r dx dy ->
     (- Qceiling (r * (inject_Z wx / bw)) <= dx <= Qceiling (r * (inject_Z wx / bw))) /\
     (- Qceiling (r * (inject_Z wy / bh)) <= dy <= Qceiling (r * (inject_Z wy / bh))) /\
     - wx <= dx <= wx /\ - wy <= dy <= wy).
  { intros dx dy D. unfold in_disc in D. fold wx wy in D.
    assert (S1 := Qsq_nonneg (inject_Z dy * bh / inject_Z wy)).
    assert (S2 := Qsq_nonneg (inject_Z dx * bw / inject_Z wx)).
    assert (G1 := disc_range dx bw r _ wx WX BW (proj1 HR) S1 D).
    assert (D' : (Qsqr (inject_Z dy * bh / inject_Z wy) + inject_Z dx * bw / inject_Z wx * (inject_Z dx * bw / inject_Z wx) <= Qsqr r)%Q).
    { rewrite Qplus_comm. exact D. }
    assert (G2 := disc_range dy bh r _ wy WY BH (proj1 HR) S2 D').
    split; [apply to_ceiling; exact G1|]. split; [apply to_ceiling; exact G2|].
    assert (EX : (inject_Z wx == bw * (inject_Z wx / bw))%Q) by (field; lra).
    assert (EY : (inject_Z wy == bh * (inject_Z wy / bh))%Q) by (field; lra).
    assert (B1 : (r * (inject_Z wx / bw) <= inject_Z wx)%Q).
    { rewrite EX at 2. apply Qmult_le_compat_r; lra. }
    assert (B2 : (r * (inject_Z wy / bh) <= inject_Z wy)%Q).
    { rewrite EY at 2. apply Qmult_le_compat_r; lra. }
    assert (C1 : (inject_Z (- wx) <= inject_Z dx <= inject_Z wx)%Q) by (rewrite inject_Z_opp; lra).
    assert (C2 : (inject_Z (- wy) <= inject_Z dy <= inject_Z wy)%Q) by (rewrite inject_Z_opp; lra).
    rewrite <- !Zle_Qle in C1, C2. lia. }
  assert (SM : (Z.min (Qceiling (r * (inject_Z wx / bw))) (Qceiling (r * (inject_Z wy / bh))) <? 3) = true <->
               (r * (inject_Z wx / bw) <= 2 \/ r * (inject_Z wy / bh) <= 2)%Q).
  { assert (C1 := ceiling_small (r * (inject_Z wx / bw))). assert (C2 := ceiling_small (r * (inject_Z wy / bh))).
    destruct (Qleb_spec (r * (inject_Z wx / bw)) 2) as [L1|L1], (Qleb_spec (r * (inject_Z wy / bh)) 2) as [L2|L2];
      split; intros Q0; try (left; exact L1); try (right; exact L2); try lia; exfalso; lia || (destruct Q0; contradiction). }
  set (small := Z.min _ _ <? 3) in *.
  assert (SMF : small = false <-> ~ (r * (inject_Z wx / bw) <= 2 \/ r * (inject_Z wy / bh) <= 2)%Q).
  { destruct small; split; intros Q0; try discriminate; try reflexivity.
    - exfalso. apply Q0. apply SM. reflexivity.
    - intros Q1. apply SM in Q1. discriminate. }
  clearbody small.
  rewrite in_flat_map. split.
  - intros (dy & Hdy & Hin). apply in_flat_map in Hin. destruct Hin as (dx & Hdx & Hin).
    destruct (Qleb_spec (Qsqr (inject_Z dx * (1 / (inject_Z wx / bw))) + Qsqr (inject_Z dy * (1 / (inject_Z wy / bh)))) (Qsqr r)) as [D|D]; [|destruct Hin].
    apply DE in D. destruct (DR dx dy D) as (G1 & G2 & G3 & G4).
    exists dx, dy. split; [exact D|]. cbv zeta.
    unfold pixel_position in Hin.
    set (col := if small then _ else _) in Hin.
    destruct col as [c|] eqn:EC; [|destruct Hin].
    assert (F1 : (r * (inject_Z wx / bw) <= 2 \/ r * (inject_Z wy / bh) <= 2)%Q -> f 0%Q 0%Q = Some c).
    { intros Q0. apply SM in Q0. unfold col in EC. rewrite Q0 in EC. exact EC. }
    assert (F2 : ~ (r * (inject_Z wx / bw) <= 2 \/ r * (inject_Z wy / bh) <= 2)%Q ->
       f ((inject_Z (pxx + dx) / inject_Z (wx + 1) * bw - x) / r)%Q
         ((inject_Z (pyy + dy) / inject_Z (wy + 1) * bh - y) / r)%Q = Some c).
    { intros Q0. apply SMF in Q0. unfold col in EC. rewrite Q0 in EC. exact EC. }
    clearbody col.
    destruct ((0 <=? pxx + dx) && (pxx + dx <? wx) && (0 <=? pyy + dy) && (pyy + dy <? wy)) eqn:IN.
    + apply in_set_px in Hin. destruct Hin as (H1 & H2 & ->). cbn [d_col d_x d_y d_depth].
      split; [exact F1|]. split; [exact F2|]. left. repeat split; lia.
    + destruct wrap; [|destruct Hin]. apply in_set_px in Hin. destruct Hin as (H1 & H2 & ->).
      cbn [d_col d_x d_y d_depth]. split; [exact F1|]. split; [exact F2|]. right.
      rewrite !wrap1_mod by lia. split; [reflexivity|]. split; [lia|]. repeat split; lia.
  - intros (dx & dy & D & F1 & F2 & K). cbv zeta in F1, F2, K.
    destruct (DR dx dy D) as (G1 & G2 & G3 & G4). exists dy. split; [apply in_zrange; lia|].
    apply in_flat_map. exists dx. split; [apply in_zrange; lia|].
    apply DE in D. destruct (Qleb_spec (Qsqr (inject_Z dx * (1 / (inject_Z wx / bw))) + Qsqr (inject_Z dy * (1 / (inject_Z wy / bh)))) (Qsqr r)) as [D'|D']; [|contradiction].
    unfold pixel_position.
    assert (EC : (if small then f 0%Q 0%Q else
       f ((inject_Z (pxx + dx) / inject_Z (wx + 1) * bw - x) / r)%Q
         ((inject_Z (pyy + dy) / inject_Z (wy + 1) * bh - y) / r)%Q) = Some (d_col e)).
    { destruct small; [apply F1, SM; reflexivity|apply F2, SMF; reflexivity]. }
    rewrite EC. destruct e as [ex ey ec ed]. cbn [d_x d_y d_col d_depth] in *.
    assert (OX : o1 p - o0 p = wx) by reflexivity. assert (OY : o3 p - o2 p = wy) by reflexivity.
    destruct K as [(K1 & K2 & -> & -> & ->)|(-> & K1 & -> & -> & ->)].
    + replace ((0 <=? pxx + dx) && (pxx + dx <? wx) && (0 <=? pyy + dy) && (pyy + dy <? wy)) with true by lia.
      apply in_set_px. split; [lia|]. split; [lia|]. f_equal; lia.
    + replace ((0 <=? pxx + dx) && (pxx + dx <? wx) && (0 <=? pyy + dy) && (pyy + dy <? wy)) with false by lia.
      rewrite !wrap1_mod by lia.
      pose proof (Z.mod_pos_bound (pxx + dx) wx WX). pose proof (Z.mod_pos_bound (pyy + dy) wy WY).
      apply in_set_px. split; [lia|]. split; [lia|]. f_equal; lia.
Qed.
Print Assumptions C109_circle_partial.

(* the space bounds are not set in a new sub-palette *)
Theorem C109_no_bounds_refuted : exists p q, new_palette 10 10 = Some p /\ sub_palette p 0 10 0 10 = Some q /\
  forall f, circle q 1 1 1 f true 0 = None.
Proof. eexists. eexists. split; [reflexivity|]. split; [reflexivity|]. reflexivity. Qed.
Print Assumptions C109_no_bounds_refuted.

(* The pixels of a circle that are wrapped are drawn at depth 0, whatever the
   depth of the circle is: a part of a circle at depth 7 hides a nearer one. *)
Definition red_px : px := mkPx 0 0 255 0.
Definition blue_px : px := mkPx 255 0 0 0.
Theorem C109_wrapped_depth_refuted : exists p l1 l2 x y,
  space p = Some (10%Q, 10%Q) /\ part_of_picture p /\ get_width p = 10 /\ get_height p = 10 /\
  circle p 9 5 1 (fun _ _ => Some red_px) true 3 = Some l1 /\
  circle p 0 5 2 (fun _ _ => Some blue_px) true 7 = Some l2 /\
  (exists d, In d l1 /\ d_x d = x /\ d_y d = y) /\
  get_pixel (to_bmp (l1 ++ l2) 10 10) x y = blue_px.
Proof.
  exists (mkPal 0 10 0 10 10 10 (Some (10%Q, 10%Q))).
  eexists. eexists. exists 9, 4. split; [reflexivity|]. split; [unfold part_of_picture; simpl; lia|].
  split; [reflexivity|]. split; [reflexivity|]. split; [vm_compute; reflexivity|].
  split; [vm_compute; reflexivity|]. split; [|vm_compute; reflexivity].
  eexists. split; [right; right; left; reflexivity|]. split; reflexivity.
Qed.
Print Assumptions C109_wrapped_depth_refuted.

(* A circle that is larger than its palette is drawn outside of it. *)
Theorem C109_large_refuted : exists p q l e, new_palette 20 20 = Some p /\ sub_palette p 5 10 5 15 = Some q /\
  circle (set_space q 10 20) 0 10 18 (fun _ _ => Some red_px) true 0 = Some l /\ In e l /\
  ~ (o0 q <= d_x e < o1 q).
Proof.
  eexists. eexists. eexists. exists (mkDraw 1 9 red_px 0).
  split; [reflexivity|]. split; [reflexivity|]. split; [vm_compute; reflexivity|].
  split; [|simpl; lia].
  match goal with |- In ?d ?l => assert (X : existsb (fun e => (d_x e =? 1) && (d_y e =? 9) && (pr (d_col e) =? 255)
     && (pb (d_col e) =? 0) && (pg (d_col e) =? 0) && (pa (d_col e) =? 0) && (Qnum (d_depth e) =? 0) && (Pos.eqb (Qden (d_depth e)) 1)) l = true) by (vm_compute; reflexivity) end.
  apply existsb_exists in X. destruct X as (d & Hin & X). unfold red_px.
  destruct d as [ex ey [b g rr a] [nn dd]]. cbn [d_x d_y d_col d_depth pr pb pg pa Qnum Qden] in X.
  assert (DD : (dd =? 1)%positive = true) by (destruct (dd =? 1)%positive; [reflexivity|rewrite andb_false_r in X; discriminate]).
  apply Pos.eqb_eq in DD. subst dd.
  replace ex with 1 in Hin by lia. replace ey with 9 in Hin by lia. replace b with 0 in Hin by lia.
  replace g with 0 in Hin by lia. replace rr with 255 in Hin by lia. replace a with 0 in Hin by lia.
  replace nn with 0 in Hin by lia. exact Hin.
Qed.
Print Assumptions C109_large_refuted.

Example C109_case :
  let p := mkPal 0 10 0 10 10 10 (Some (10%Q, 10%Q)) in
  pixel_of 10 10 (19#2) 9 /\ in_disc p 10 10 1 1 0 /\ ~ in_disc p 10 10 1 1 1 /\
  exists l, circle p (19#2) 5 1 (fun _ _ => Some red_px) true 3 = Some l /\
  In (mkDraw 9 4 red_px 3) l /\ In (mkDraw 0 4 red_px 0) l /\ length l = 5%nat.
Proof.
  cbv zeta. split; [unfold pixel_of; split; [unfold Qle; simpl; lia|unfold Qlt; simpl; lia]|].
  split; [unfold in_disc; apply Qle_bool_iff; vm_compute; reflexivity|].
  split; [unfold in_disc; intros H; apply Qle_bool_iff in H; vm_compute in H; discriminate|].
  eexists. split; [vm_compute; reflexivity|]. split; [simpl; auto 10|]. split; [simpl; auto 10|reflexivity].
Qed.

(* ---- C110 *)
(* The pixels of a sub-palette: columns from the left; rows My counted from
   the upper edge of the palette. *)
Theorem C110_sub_partial p mx Mx my My : 0 <= mx < Mx -> Mx <= get_width p -> 0 <= my < My -> My <= get_height p ->
  exists q, sub_palette p mx Mx my My = Some q /\ get_width q = Mx - mx /\ get_height q = My - my /\
  (part_of_picture p -> part_of_picture q) /\
  (forall u v c d, set_px q u v c d = set_px p (mx + u) (get_height p - My + v) c d) /\
  (my + My = get_height p -> forall u v c d, set_px q u v c d = set_px p (mx + u) (my + v) c d).
Proof.
  intros A B C D. unfold sub_palette.
  replace ((Mx <? mx) || (My <? my)) with false by lia.
  replace (mx <? 0) with false by lia. replace (get_width p <=? mx) with false by lia.
  replace (my <? 0) with false by lia. replace (get_height p <? my) with false by lia.
  replace ((o0 p + Mx <=? o0 p + mx) || (o2 p + My <=? o2 p + my)) with false by lia.
  eexists. split; [reflexivity|].
  unfold get_width, get_height, part_of_picture, set_px in *. cbn [o0 o1 o2 o3 pw ph].
  split; [lia|]. split; [lia|]. split; [lia|].
  assert (G : forall u v c d, set_px (mkPal (o0 p + mx) (o0 p + Mx) (o2 p + my) (o2 p + My) (pw p) (ph p) None) u v c d =
     set_px p (mx + u) (o3 p - o2 p - My + v) c d).
  { intros u v c d. unfold set_px. cbn [o0 o1 o2 o3 pw ph].
    replace (u + (o0 p + mx)) with (mx + u + o0 p) by lia.
    replace (o2 p + My - v - 1) with (o3 p - (o3 p - o2 p - My + v) - 1) by lia. reflexivity. }
  split; [exact G|]. intros E u v c d. specialize (G u v c d). unfold set_px in G. cbn [o0 o1 o2 o3 pw ph] in G.
  rewrite G. replace (o3 p - o2 p - My + v) with (my + v) by lia. reflexivity.
Qed.
Print Assumptions C110_sub_partial.

(* Rows are counted from the wrong side: the lower half of a palette is its
   upper half. *)
Theorem C110_rows_refuted : exists p q, new_palette 10 10 = Some p /\ sub_palette p 0 10 0 5 = Some q /\
  forall c d, set_px q 0 0 c d <> set_px p 0 0 c d /\ set_px q 0 0 c d = set_px p 0 5 c d.
Proof.
  eexists. eexists. split; [reflexivity|]. split; [reflexivity|]. intros c d.
  unfold set_px. cbn. split; [congruence|reflexivity].
Qed.
Print Assumptions C110_rows_refuted.

(* A sub-palette may be larger than the palette. *)
Theorem C110_larger_refuted : exists p q, new_palette 10 10 = Some p /\ sub_palette p 0 15 0 10 = Some q /\
  get_width p < get_width q.
Proof. eexists. eexists. split; [reflexivity|]. split; [reflexivity|]. vm_compute. reflexivity. Qed.
Print Assumptions C110_larger_refuted.

Lemma trunc_nonneg q : (0 <= q)%Q -> Qtrunc q = Qfloor q.
Proof. intros H. unfold Qtrunc. destruct (Qltb_spec q 0); [lra|reflexivity]. Qed.

Lemma floor_nonneg q : (0 <= q)%Q -> 0 <= Qfloor q.
Proof. intros H. change 0 with (Qfloor 0). apply Qfloor_resp_le. exact H. Qed.

Lemma floor_le_Z q n : (q <= inject_Z n)%Q -> Qfloor q <= n.
Proof. intros H. rewrite <- (Qfloor_Z n). apply Qfloor_resp_le. exact H. Qed.

(* the centred part: the same border on all four sides *)
Theorem C110_centered_partial p fx : 0 < get_width p -> (0 <= fx < 1#2)%Q ->
  let b := Qfloor (inject_Z (get_width p) * fx) in
  (2 * b < get_height p ->
   exists q, sub_centered p fx = Some q /\ get_width q = get_width p - 2 * b /\
   get_height q = get_height p - 2 * b /\ (part_of_picture p -> part_of_picture q) /\
   forall u v c d, set_px q u v c d = set_px p (b + u) (b + v) c d) /\
  (get_height p <= 2 * b -> sub_centered p fx = None).
Proof.
  intros W [F1 F2] b. assert (W' := inject_pos _ W).
  assert (B0 : 0 <= b) by (apply floor_nonneg, Qmult_le_0_compat; lra).
  assert (B1 : 2 * b < get_width p).
  { assert (L := Qfloor_le (inject_Z (get_width p) * fx)). fold b in L.
    assert (inject_Z (2 * b) < inject_Z (get_width p))%Q by (rewrite inject_Z_mult; change (inject_Z 2) with 2%Q; nra).
    rewrite <- Zlt_Qlt in H. exact H. }
  assert (E : sub_centered p fx = sub_palette p b (get_width p - b) b (get_height p - b)).
  { unfold sub_centered. destruct (Qleb_spec (1#2) fx); [lra|].
    rewrite trunc_nonneg by (apply Qmult_le_0_compat; lra). reflexivity. }
  rewrite E. split.
  - intros H. destruct (C110_sub_partial p b (get_width p - b) b (get_height p - b)) as (q & Q1 & Q2 & Q3 & Q4 & _ & Q5); try lia.
    exists q. split; [exact Q1|]. split; [lia|]. split; [lia|]. split; [exact Q4|]. apply Q5. lia.
  - intros H. unfold sub_palette.
    destruct ((get_width p - b <? b) || (get_height p - b <? b)) eqn:E1; [reflexivity|].
    replace (b <? 0) with false by lia.
    destruct (get_width p <=? b) eqn:E2; [lia|]. destruct (get_height p <? b) eqn:E3.
    + replace ((o0 p + (get_width p - b) <=? o0 p + b) || (o2 p + (get_height p - b) <=? o2 p + get_height p)) with true by lia. reflexivity.
    + replace ((o0 p + (get_width p - b) <=? o0 p + b) || (o2 p + (get_height p - b) <=? o2 p + b)) with true by lia. reflexivity.
Qed.
Print Assumptions C110_centered_partial.

(* The largest centred part with sides of ratio rx : ry: the full width and
   the height that belongs to it, or the full height. *)
Theorem C110_max_partial p rx ry : 0 < get_width p -> 0 < get_height p -> (0 < rx)%Q -> (0 < ry)%Q ->
  ((inject_Z (get_width p) * ry <= inject_Z (get_height p) * rx)%Q ->
   (inject_Z (get_width p / get_height p) < rx / ry)%Q ->
   forall h, h = Qfloor (inject_Z (get_width p) * ry / rx) -> 1 <= h ->
   exists q, sub_max p rx ry = Some q /\ get_width q = get_width p /\ h <= get_height q <= h + 1 /\
   get_height q <= get_height p /\ (part_of_picture p -> part_of_picture q) /\
   exists gap, get_height q + 2 * gap = get_height p /\
     forall u v c d, set_px q u v c d = set_px p u (gap + v) c d) /\
  ((rx / ry <= inject_Z (get_width p / get_height p))%Q ->
   forall w, w = Qfloor (inject_Z (get_height p) * rx / ry) -> 1 <= w ->
   exists q, sub_max p rx ry = Some q /\ get_height q = get_height p /\ w <= get_width q <= w + 1 /\
   get_width q <= get_width p /\ (part_of_picture p -> part_of_picture q) /\
   exists gap, get_width q + 2 * gap = get_width p /\
     forall u v c d, set_px q u v c d = set_px p (gap + u) v c d).
Proof.
  intros W H RX RY. assert (W' := inject_pos _ W). assert (H' := inject_pos _ H).
  unfold sub_max. destruct (Qleb_spec rx 0) as [L|_]; [lra|]. destruct (Qleb_spec ry 0) as [L|_]; [lra|].
  cbn [orb]. rewrite Z.quot_div_nonneg by lia.
  set (native := inject_Z (get_width p / get_height p)).
  assert (HALF : forall k, 0 <= k -> Z.quot k 2 = k / 2) by (intros; apply Z.quot_div_nonneg; lia).
  split.
  - intros C1 C2 h Eh Hh. destruct (Qltb_spec native (rx / ry)) as [_|N]; [|contradiction].
    assert (E : Qtrunc (inject_Z (get_width p) / (rx / ry)) = h).
    { rewrite trunc_nonneg.
      - rewrite Eh. apply Qfloor_comp. field. lra.
      - apply Qlt_le_weak, ratio_pos; [exact W'|apply ratio_pos; assumption]. }
    rewrite E.
    assert (HH : h <= get_height p).
    { rewrite Eh. apply floor_le_Z. apply Qle_shift_div_r; assumption. }
    rewrite HALF by lia. pose proof (Z.div_mod (get_height p - h) 2 ltac:(lia)) as DM.
    pose proof (Z.mod_pos_bound (get_height p - h) 2 ltac:(lia)) as MB.
    set (gap := (get_height p - h) / 2) in *.
    assert (G0 : 0 <= gap) by (apply Z.div_pos; lia).
    destruct (C110_sub_partial p 0 (get_width p) gap (get_height p - gap)) as (q & Q1 & Q2 & Q3 & Q4 & _ & Q5); try lia.
    exists q. split; [exact Q1|]. split; [lia|]. split; [lia|]. split; [lia|]. split; [exact Q4|].
    exists gap. split; [lia|]. intros u v c d. rewrite Q5 by lia. reflexivity.
  - intros C1 w Ew Hw. destruct (Qltb_spec native (rx / ry)) as [N|_]; [exfalso; lra|].
    assert (E : Qtrunc (rx / ry * inject_Z (get_height p)) = w).
    { rewrite trunc_nonneg.
      - rewrite Ew. apply Qfloor_comp. field. lra.
      - apply Qmult_le_0_compat; [apply Qlt_le_weak, ratio_pos; assumption|lra]. }
    rewrite E.
    assert (WW : w <= get_width p).
    { rewrite Ew. apply floor_le_Z.
      pose proof (Z.mul_div_le (get_width p) (get_height p) H) as D.
      assert (D' : (inject_Z (get_height p) * native <= inject_Z (get_width p))%Q).
      { unfold native. rewrite <- inject_Z_mult. rewrite <- Zle_Qle. exact D. }
      assert (E2 : (inject_Z (get_height p) * rx / ry == inject_Z (get_height p) * (rx / ry))%Q) by (field; lra).
      rewrite E2. set (k := (rx / ry)%Q) in *. clearbody k native. nra. }
    rewrite HALF by lia. pose proof (Z.div_mod (get_width p - w) 2 ltac:(lia)) as DM.
    pose proof (Z.mod_pos_bound (get_width p - w) 2 ltac:(lia)) as MB.
    set (gap := (get_width p - w) / 2) in *.
    assert (G0 : 0 <= gap) by (apply Z.div_pos; lia).
    destruct (C110_sub_partial p gap (get_width p - gap) 0 (get_height p)) as (q & Q1 & Q2 & Q3 & Q4 & _ & Q5); try lia.
    exists q. split; [exact Q1|]. split; [lia|]. split; [lia|]. split; [lia|]. split; [exact Q4|].
    exists gap. split; [lia|]. intros u v c d. rewrite Q5 by lia. reflexivity.
Qed.
Print Assumptions C110_max_partial.

(* A palette of 150 by 100 pixels, ratio 6 : 5: the part is larger than the
   palette. *)
Theorem C110_max_refuted : exists p q, new_palette 150 100 = Some p /\ sub_max p 6 5 = Some q /\
  get_width q = 150 /\ get_height q = 112 /\ ~ part_of_picture q.
Proof.
  eexists. eexists. split; [reflexivity|]. split; [vm_compute; reflexivity|].
  split; [reflexivity|]. split; [reflexivity|]. unfold part_of_picture. simpl. lia.
Qed.
Print Assumptions C110_max_refuted.

Example C110_case : exists p q r, new_palette 200 100 = Some p /\ sub_centered p (1#10) = Some q /\
  get_width q = 160 /\ get_height q = 60 /\ sub_max q 1 1 = Some r /\ get_width r = 60 /\ o0 r = 70.
Proof.
  eexists. eexists. eexists. split; [reflexivity|]. split; [vm_compute; reflexivity|].
  split; [reflexivity|]. split; [reflexivity|]. split; [vm_compute; reflexivity|]. split; reflexivity.
Qed.

(* ---- C111 *)
(* a line is the same from both ends *)
Theorem C111_reverse p x0 y0 x1 y1 c d : line p x0 y0 x1 y1 c d = line p x1 y1 x0 y0 c d.
Proof.
  unfold line. cbv zeta. replace (Z.abs (x0 - x1)) with (Z.abs (x1 - x0)) by lia.
  replace (Z.abs (y0 - y1)) with (Z.abs (y1 - y0)) by lia.
  destruct (Z.abs (x1 - x0) <? Z.abs (y1 - y0)) eqn:E.
  - destruct (y1 <? y0) eqn:E1, (y0 <? y1) eqn:E2; try reflexivity; lia.
  - destruct (x1 <? x0) eqn:E1, (x0 <? x1) eqn:E2; try reflexivity; try lia.
    assert (x0 = x1) by lia. assert (y0 = y1) by lia. subst. reflexivity.
Qed.
Print Assumptions C111_reverse.

Lemma Qtrunc_comp a b : (a == b)%Q -> Qtrunc a = Qtrunc b.
Proof.
  intros E. unfold Qtrunc. destruct (Qltb_spec a 0), (Qltb_spec b 0); try lra.
  - f_equal. apply Qfloor_comp. rewrite E. reflexivity.
  - apply Qfloor_comp. exact E.
Qed.
Lemma scale_comp a b c : (a == b)%Q -> scale_px a c = scale_px b c.
Proof.
  intros E. unfold scale_px. f_equal; f_equal; apply Qtrunc_comp; rewrite E; reflexivity.
Qed.
Lemma floor_frac t : (inject_Z (Qfloor t) <= t < inject_Z (Qfloor t) + 1)%Q.
Proof.
  split; [apply Qfloor_le|]. assert (H := Qlt_floor t). rewrite inject_Z_plus in H. exact H.
Qed.
Lemma rfpart_strength t : (rfpart t == strength t (Qfloor t))%Q.
Proof.
  unfold rfpart, strength. destruct (floor_frac t). rewrite Qabs_pos by lra. ring.
Qed.
Lemma fpart_strength t : (fpart t == strength t (Qfloor t + 1))%Q.
Proof.
  unfold fpart, strength. destruct (floor_frac t). rewrite inject_Z_plus. change (inject_Z 1) with 1%Q.
  rewrite Qabs_neg by lra. ring.
Qed.
Lemma strength_range t k : next_to t k -> (0 <= strength t k <= 1)%Q.
Proof.
  unfold strength. destruct (floor_frac t). intros [-> | ->].
  - rewrite Qabs_pos by lra. lra.
  - rewrite inject_Z_plus. change (inject_Z 1) with 1%Q. rewrite Qabs_neg by lra. lra.
Qed.
Lemma strength_comp t t' k : (t == t')%Q -> (strength t k == strength t' k)%Q.
Proof. intros E. unfold strength. rewrite E. reflexivity. Qed.

Definition byte_colour (c : px) : Prop := 0 <= pr c < 256 /\ 0 <= pg c < 256 /\ 0 <= pb c < 256.
Lemma scale_dimmed w c : (0 <= w <= 1)%Q -> byte_colour c -> dimmed w c (scale_px w c).
Proof.
  intros W (R & G & B). unfold dimmed, scale_px. cbn [pr pg pb].
  assert (K : forall z, 0 <= z < 256 -> Qtrunc (w * inject_Z z) mod 256 = Qfloor (w * inject_Z z)).
  { intros z Z0. assert (Z' : (0 <= inject_Z z)%Q) by (change 0%Q with (inject_Z 0); rewrite <- Zle_Qle; lia).
    assert (P : (0 <= w * inject_Z z)%Q) by (apply Qmult_le_0_compat; lra).
    rewrite trunc_nonneg by exact P. apply Z.mod_small. split; [apply floor_nonneg; exact P|].
    apply Z.le_lt_trans with z; [|lia]. apply floor_le_Z. nra. }
  rewrite !K by assumption. auto.
Qed.

(* the pixels of the columns between the ends *)
Lemma in_loop p s c d g n : forall x i e, In e (line_loop p s n x i g c d) <->
  exists m k, (m < n)%nat /\ next_to (i + inject_Z (Z.of_nat m) * g) k /\
  In e (line_px p s (x + Z.of_nat m) k (scale_px (strength (i + inject_Z (Z.of_nat m) * g) k) c) d).
Proof.
  induction n as [|n IH]; intros x i e; cbn [line_loop].
  - split; [intros []|]. intros (m & k & M & _). lia.
  - rewrite !in_app_iff, IH. clear IH.
    assert (Z0 : (i + inject_Z (Z.of_nat 0) * g == i)%Q) by (simpl; ring).
    assert (NX : forall m, (i + g + inject_Z (Z.of_nat m) * g == i + inject_Z (Z.of_nat (S m)) * g)%Q).
    { intros m. rewrite Nat2Z.inj_succ. unfold Z.succ. rewrite inject_Z_plus. change (inject_Z 1) with 1%Q. ring. }
    split.
    + intros [Hin|[Hin|(m & k & M & K & Hin)]].
      * exists 0%nat, (Qfloor i). split; [lia|]. split; [left; symmetry; apply Qfloor_comp; exact Z0|].
        rewrite (scale_comp _ (rfpart i)) by (rewrite (strength_comp _ _ _ Z0), rfpart_strength; reflexivity).
        rewrite Z.add_0_r. exact Hin.
      * exists 0%nat, (Qfloor i + 1). split; [lia|]. split; [right; f_equal; symmetry; apply Qfloor_comp; exact Z0|].
        rewrite (scale_comp _ (fpart i)) by (rewrite (strength_comp _ _ _ Z0), fpart_strength; reflexivity).
        rewrite Z.add_0_r. exact Hin.
      * exists (S m), k. split; [lia|]. split.
        -- unfold next_to in *. rewrite <- (Qfloor_comp _ _ (NX m)). exact K.
        -- rewrite <- (scale_comp _ _ _ (strength_comp _ _ k (NX m))).
           replace (x + Z.of_nat (S m)) with (x + 1 + Z.of_nat m) by lia. exact Hin.
    + intros (m & k & M & K & Hin). destruct m as [|m].
      * rewrite Z.add_0_r in Hin. unfold next_to in K. rewrite (Qfloor_comp _ _ Z0) in K. destruct K as [-> | ->].
        -- left. rewrite (scale_comp _ (rfpart i)) in Hin by (rewrite (strength_comp _ _ _ Z0), rfpart_strength; reflexivity).
           exact Hin.
        -- right; left. rewrite (scale_comp _ (fpart i)) in Hin by (rewrite (strength_comp _ _ _ Z0), fpart_strength; reflexivity).
           exact Hin.
      * right; right. exists m, k. split; [lia|]. split.
        -- unfold next_to in *. rewrite (Qfloor_comp _ _ (NX m)). exact K.
        -- rewrite (scale_comp _ _ _ (strength_comp _ _ k (NX m))).
           replace (x + 1 + Z.of_nat m) with (x + Z.of_nat (S m)) by lia. exact Hin.
Qed.

Lemma half_gap x : (rfpart (inject_Z x + (1#2)) == 1#2)%Q /\ (fpart (inject_Z x + (1#2)) == 1#2)%Q.
Proof.
  assert (F : Qfloor (inject_Z x + (1#2)) = x).
  { assert (A := floor_frac (inject_Z x + (1#2))). destruct A as [A B].
    assert (inject_Z (Qfloor (inject_Z x + (1 # 2))) < inject_Z (x + 1))%Q by (rewrite inject_Z_plus; change (inject_Z 1) with 1%Q; lra).
    assert (inject_Z x < inject_Z (Qfloor (inject_Z x + (1 # 2)) + 1))%Q by (rewrite inject_Z_plus; change (inject_Z 1) with 1%Q; lra).
    rewrite <- Zlt_Qlt in *. lia. }
  unfold rfpart, fpart. rewrite F. split; ring.
Qed.

Definition line_body (p : palette) (s : bool) (x0 y0 x1 y1 : Z) (c : px) (d : Q) : list draw :=
  line_px p s x0 (Qfloor (inject_Z y0)) (scale_px (rfpart (inject_Z y0) * rfpart (inject_Z x0 + (1#2))) c) d
  ++ line_px p s x0 (Qfloor (inject_Z y0) + 1) (scale_px (fpart (inject_Z y0) * rfpart (inject_Z x0 + (1#2))) c) d
  ++ line_px p s x1 (Qfloor (inject_Z y1)) (scale_px (rfpart (inject_Z y1) * fpart (inject_Z x1 + (1#2))) c) d
  ++ line_px p s x1 (Qfloor (inject_Z y1) + 1) (scale_px (fpart (inject_Z y1) * fpart (inject_Z x1 + (1#2))) c) d
  ++ line_loop p s (Z.to_nat (x1 - x0 - 1)) (x0 + 1)
       (inject_Z y0 + (if Qeq_bool (inject_Z (x1 - x0)) 0 then 1 else inject_Z (y1 - y0) / inject_Z (x1 - x0)))%Q
       (if Qeq_bool (inject_Z (x1 - x0)) 0 then 1 else inject_Z (y1 - y0) / inject_Z (x1 - x0))%Q c d.

Lemma in_body p s x0 y0 x1 y1 c d e : x0 <= x1 -> Z.abs (y1 - y0) <= x1 - x0 ->
  In e (line_body p s x0 y0 x1 y1 c d) <->
  exists x k w, x0 <= x <= x1 /\ next_to (line_height x0 y0 x1 y1 x) k /\
  (w == strength (line_height x0 y0 x1 y1 x) k * (if (x =? x0) || (x =? x1) then 1#2 else 1))%Q /\
  In e (line_px p s x k (scale_px w c) d).
Proof.
  intros L A. unfold line_body.
  destruct (half_gap x0) as [G1 _]. destruct (half_gap x1) as [_ G2].
  assert (T0 : (line_height x0 y0 x1 y1 x0 == inject_Z y0)%Q).
  { unfold line_height. rewrite Z.sub_diag. change (inject_Z 0) with 0%Q. unfold Qdiv. ring. }
  assert (T1 : (line_height x0 y0 x1 y1 x1 == inject_Z y1)%Q).
  { unfold line_height. destruct (Z.eq_dec x0 x1) as [EQ|NE].
    - replace (x1 - x0) with 0 by lia. change (inject_Z 0) with 0%Q. replace y1 with y0 by lia. unfold Qdiv. ring.
    - assert (P := inject_pos (x1 - x0) ltac:(lia)).
      transitivity (inject_Z y0 + inject_Z (y1 - y0))%Q; [field; lra|].
      rewrite <- inject_Z_plus. replace (y0 + (y1 - y0)) with y1 by lia. reflexivity. }
  assert (TM : forall m, (m < Z.to_nat (x1 - x0 - 1))%nat ->
    (inject_Z y0 + (if Qeq_bool (inject_Z (x1 - x0)) 0 then 1 else inject_Z (y1 - y0) / inject_Z (x1 - x0)) +
     inject_Z (Z.of_nat m) * (if Qeq_bool (inject_Z (x1 - x0)) 0 then 1 else inject_Z (y1 - y0) / inject_Z (x1 - x0))
     == line_height x0 y0 x1 y1 (x0 + 1 + Z.of_nat m))%Q).
  { intros m M. assert (P := inject_pos (x1 - x0) ltac:(lia)).
    destruct (Qeq_bool (inject_Z (x1 - x0)) 0) eqn:EQ; [apply Qeq_bool_iff in EQ; lra|].
    unfold line_height. replace (x0 + 1 + Z.of_nat m - x0) with (1 + Z.of_nat m) by lia.
    rewrite (inject_Z_plus 1). change (inject_Z 1) with 1%Q. field. lra. }
  rewrite !in_app_iff, in_loop. split.
  - intros [Hin|[Hin|[Hin|[Hin|(m & k & M & K & Hin)]]]].
    + exists x0, (Qfloor (inject_Z y0)). eexists. split; [lia|].
      split; [left; apply Qfloor_comp; symmetry; exact T0|]. split; [|exact Hin].
      rewrite Z.eqb_refl. cbn [orb]. rewrite G1, rfpart_strength, (strength_comp _ _ _ T0). reflexivity.
    + exists x0, (Qfloor (inject_Z y0) + 1). eexists. split; [lia|].
      split; [right; f_equal; apply Qfloor_comp; symmetry; exact T0|]. split; [|exact Hin].
      rewrite Z.eqb_refl. cbn [orb]. rewrite G1, fpart_strength, (strength_comp _ _ _ T0). reflexivity.
    + exists x1, (Qfloor (inject_Z y1)). eexists. split; [lia|].
      split; [left; apply Qfloor_comp; symmetry; exact T1|]. split; [|exact Hin].
      rewrite Z.eqb_refl, orb_true_r. rewrite G2, rfpart_strength, (strength_comp _ _ _ T1). reflexivity.
    + exists x1, (Qfloor (inject_Z y1) + 1). eexists. split; [lia|].
      split; [right; f_equal; apply Qfloor_comp; symmetry; exact T1|]. split; [|exact Hin].
      rewrite Z.eqb_refl, orb_true_r. rewrite G2, fpart_strength, (strength_comp _ _ _ T1). reflexivity.
    + exists (x0 + 1 + Z.of_nat m), k. eexists. split; [lia|].
      split; [unfold next_to in *; rewrite <- (Qfloor_comp _ _ (TM m M)); exact K|]. split; [|exact Hin].
      replace ((x0 + 1 + Z.of_nat m =? x0) || (x0 + 1 + Z.of_nat m =? x1)) with false by lia.
      rewrite (strength_comp _ _ _ (TM m M)). ring.
  - intros (x & k & w & X & K & W & Hin). rewrite (scale_comp _ _ _ W) in Hin. clear W.
    destruct (Z.eq_dec x x0) as [EX|NX0]; [subst x|destruct (Z.eq_dec x x1) as [EX|NX1]; [subst x|]].
    + rewrite Z.eqb_refl in Hin. cbn [orb] in Hin. unfold next_to in K. rewrite (Qfloor_comp _ _ T0) in K.
      destruct K as [-> | ->].
      * left. erewrite scale_comp; [exact Hin|]. rewrite G1, rfpart_strength, (strength_comp _ _ _ T0). reflexivity.
      * right; left. erewrite scale_comp; [exact Hin|]. rewrite G1, fpart_strength, (strength_comp _ _ _ T0). reflexivity.
    + rewrite Z.eqb_refl, orb_true_r in Hin. unfold next_to in K. rewrite (Qfloor_comp _ _ T1) in K.
      destruct K as [-> | ->].
      * right; right; left. erewrite scale_comp; [exact Hin|]. rewrite G2, rfpart_strength, (strength_comp _ _ _ T1). reflexivity.
      * right; right; right; left. erewrite scale_comp; [exact Hin|]. rewrite G2, fpart_strength, (strength_comp _ _ _ T1). reflexivity.
    + right; right; right; right. exists (Z.to_nat (x - x0 - 1)), k. split; [lia|].
      assert (TMx := TM (Z.to_nat (x - x0 - 1)) ltac:(lia)).
      replace (x0 + 1 + Z.of_nat (Z.to_nat (x - x0 - 1))) with x in * by lia.
      split; [unfold next_to in *; rewrite (Qfloor_comp _ _ TMx); exact K|].
      erewrite scale_comp; [exact Hin|].
      replace ((x =? x0) || (x =? x1)) with false by lia. rewrite (strength_comp _ _ _ TMx). ring.
Qed.

Lemma scale_unique w c c' : (0 <= w <= 1)%Q -> byte_colour c -> dimmed w c c' -> pa c' = 0 -> c' = scale_px w c.
Proof.
  intros W B (R & G & Bl) Al. destruct (scale_dimmed w c W B) as (R' & G' & B').
  destruct c' as [b g r a]. cbn [pr pg pb pa] in *.
  assert (E : scale_px w c = mkPx (pb (scale_px w c)) (pg (scale_px w c)) (pr (scale_px w c)) 0) by reflexivity.
  rewrite E, R', G', B'. congruence.
Qed.

(* C111: a line that is not steep: in every column from one end to the other
   the two pixels next to the straight line, each the dimmer the farther it
   is from the line, half as bright at the ends. *)
Theorem C111_line p x0 y0 x1 y1 c d e : Z.abs (y1 - y0) <= x1 - x0 ->
  0 <= pr c < 256 /\ 0 <= pg c < 256 /\ 0 <= pb c < 256 ->
  In e (line p x0 y0 x1 y1 c d) <->
  exists x k w, x0 <= x <= x1 /\ next_to (line_height x0 y0 x1 y1 x) k /\
  (w == strength (line_height x0 y0 x1 y1 x) k * (if (x =? x0) || (x =? x1) then 1#2 else 1))%Q /\
  d_x e = o0 p + x /\ d_y e = o3 p - 1 - k /\ 0 <= d_x e < pw p /\ 0 <= d_y e < ph p /\
  dimmed w c (d_col e) /\ pa (d_col e) = 0 /\ d_depth e = d.
Proof.
  intros S B. assert (E : line p x0 y0 x1 y1 c d = line_body p false x0 y0 x1 y1 c d).
  { unfold line, line_body. cbv zeta. replace (Z.abs (x1 - x0) <? Z.abs (y1 - y0)) with false by lia.
    replace (x1 <? x0) with false by lia. reflexivity. }
  rewrite E, in_body by lia. split; intros (x & k & w & X & K & W & Hin); exists x, k, w;
    (split; [exact X|]); (split; [exact K|]); (split; [exact W|]).
  - assert (SR := strength_range _ _ K).
    assert (W01 : (0 <= w <= 1)%Q) by (rewrite W; destruct (_ || _); lra).
    unfold line_px in Hin. apply in_set_px in Hin. destruct Hin as (P1 & P2 & ->). cbn [d_x d_y d_col d_depth].
    split; [lia|]. split; [lia|]. split; [lia|]. split; [lia|].
    split; [apply scale_dimmed; assumption|]. split; reflexivity.
  - assert (SR := strength_range _ _ K).
    assert (W01 : (0 <= w <= 1)%Q) by (rewrite W; destruct (_ || _); lra).
    destruct Hin as (P1 & P2 & P3 & P4 & P5 & P6 & P7). unfold line_px. apply in_set_px.
    split; [lia|]. split; [lia|]. destruct e as [ex ey ec ed]. cbn [d_x d_y d_col d_depth] in *.
    rewrite (scale_unique w c ec) by assumption. f_equal; try lia. assumption.
Qed.
Print Assumptions C111_line.

(* a steep line: the same with rows and columns exchanged *)
Theorem C111_steep p x0 y0 x1 y1 c d e : Z.abs (x1 - x0) < y1 - y0 ->
  0 <= pr c < 256 /\ 0 <= pg c < 256 /\ 0 <= pb c < 256 ->
  In e (line p x0 y0 x1 y1 c d) <->
  exists y k w, y0 <= y <= y1 /\ next_to (line_height y0 x0 y1 x1 y) k /\
  (w == strength (line_height y0 x0 y1 x1 y) k * (if (y =? y0) || (y =? y1) then 1#2 else 1))%Q /\
  d_x e = o0 p + k /\ d_y e = o3 p - 1 - y /\ 0 <= d_x e < pw p /\ 0 <= d_y e < ph p /\
  dimmed w c (d_col e) /\ pa (d_col e) = 0 /\ d_depth e = d.
Proof.
  intros S B. assert (E : line p x0 y0 x1 y1 c d = line_body p true y0 x0 y1 x1 c d).
  { unfold line, line_body. cbv zeta. replace (Z.abs (x1 - x0) <? Z.abs (y1 - y0)) with true by lia.
    replace (y1 <? y0) with false by lia. reflexivity. }
  rewrite E, in_body by lia. split; intros (x & k & w & X & K & W & Hin); exists x, k, w;
    (split; [exact X|]); (split; [exact K|]); (split; [exact W|]).
  - assert (SR := strength_range _ _ K).
    assert (W01 : (0 <= w <= 1)%Q) by (rewrite W; destruct (_ || _); lra).
    unfold line_px in Hin. apply in_set_px in Hin. destruct Hin as (P1 & P2 & ->). cbn [d_x d_y d_col d_depth].
    split; [lia|]. split; [lia|]. split; [lia|]. split; [lia|].
    split; [apply scale_dimmed; assumption|]. split; reflexivity.
  - assert (SR := strength_range _ _ K).
    assert (W01 : (0 <= w <= 1)%Q) by (rewrite W; destruct (_ || _); lra).
    destruct Hin as (P1 & P2 & P3 & P4 & P5 & P6 & P7). unfold line_px. apply in_set_px.
    split; [lia|]. split; [lia|]. destruct e as [ex ey ec ed]. cbn [d_x d_y d_col d_depth] in *.
    rewrite (scale_unique w c ec) by assumption. f_equal; try lia. assumption.
Qed.
Print Assumptions C111_steep.

(* The dimmed pixels replace what was there, instead of being mixed with it:
   a red line on white leaves a black line above it. *)
Theorem C111_mixed_refuted : exists p l, new_palette 8 8 = Some p /\
  l = cover p (mkPx 255 255 255 0) 1000 ++ line p 1 4 6 4 red_px 0 /\
  line_height 1 4 6 4 3 == 4 /\
  get_pixel (to_bmp l 8 8) 3 3 = red_px /\ get_pixel (to_bmp l 8 8) 3 2 = mkPx 0 0 0 0.
Proof.
  eexists. eexists. split; [reflexivity|]. split; [reflexivity|].
  split; [vm_compute; reflexivity|]. split; vm_compute; reflexivity.
Qed.
Print Assumptions C111_mixed_refuted.

Example C111_case : exists p, new_palette 20 20 = Some p /\
  Z.abs (7 - 2) <= 11 - 1 /\ (line_height 1 2 11 7 6 == 9 # 2)%Q /\
  In (mkDraw 6 15 (mkPx 0 0 127 0) 0) (line p 1 2 11 7 red_px 0) /\
  In (mkDraw 6 14 (mkPx 0 0 127 0) 0) (line p 1 2 11 7 red_px 0).
Proof.
  eexists. split; [reflexivity|]. split; [lia|]. split; [vm_compute; reflexivity|].
  split; match goal with |- In _ ?l => let g := eval vm_compute in l in change l with g end; simpl; auto 40.
Qed.

(* ---- C112 *)
Definition users (w : world) (n : nat) (i : nat) : nat :=
  length (filter (fun s => match pal w s with Some j => (j =? i)%nat | None => false end) (seq 0 n)).

Lemma filter_ext_len {A} (f g : A -> bool) l : (forall a, In a l -> f a = g a) -> length (filter f l) = length (filter g l).
Proof.
  intros H. induction l as [|a l IH]; [reflexivity|]. simpl. rewrite (H a) by (left; reflexivity).
  destruct (g a); simpl; rewrite IH; auto; intros b Hb; apply H; right; exact Hb.
Qed.

Lemma upd_same {A} (f : nat -> A) k v : upd f k v k = v.
Proof. unfold upd. rewrite Nat.eqb_refl. reflexivity. Qed.

(* changing one variable *)
Lemma filter_upd (P : nat -> option nat) s v i n : (s < n)%nat ->
  (length (filter (fun t => match upd P s v t with Some j => (j =? i)%nat | None => false end) (seq 0 n))
   + (match P s with Some j => if (j =? i)%nat then 1 else 0 | None => 0 end) =
   length (filter (fun t => match P t with Some j => (j =? i)%nat | None => false end) (seq 0 n))
   + (match v with Some j => if (j =? i)%nat then 1 else 0 | None => 0 end))%nat.
Proof.
  intros L. replace n with (s + S (n - s - 1))%nat by lia. rewrite seq_app, !filter_app, !app_length. simpl seq.
  cbn [filter]. rewrite upd_same.
  rewrite (filter_ext_len (fun t => match upd P s v t with Some j => (j =? i)%nat | None => false end)
      (fun t => match P t with Some j => (j =? i)%nat | None => false end) (seq 0 s)).
  2:{ intros t Ht. apply in_seq in Ht. unfold upd. replace (t =? s)%nat with false by lia. reflexivity. }
  assert (X := filter_ext_len (fun t => match upd P s v t with Some j => (j =? i)%nat | None => false end)
      (fun t => match P t with Some j => (j =? i)%nat | None => false end) (seq (S s) (n - s - 1))).
  specialize (X ltac:(intros t Ht; apply in_seq in Ht; unfold upd; replace (t =? s)%nat with false by lia; reflexivity)).
  destruct v as [j|], (P s) as [j'|]; try (destruct (j =? i)%nat); try (destruct (j' =? i)%nat); cbn [length]; lia.
Qed.

Lemma users_more w n m i : (forall s, (n <= s)%nat -> pal w s = None) -> (n <= m)%nat -> users w m i = users w n i.
Proof.
  intros H L. unfold users. replace m with (n + (m - n))%nat by lia. rewrite seq_app, filter_app, app_length.
  rewrite (filter_ext_len _ (fun _ => false) (seq (0 + n) (m - n))).
  - induction (seq (0 + n) (m - n)); simpl in *; lia.
  - intros s Hs. apply in_seq in Hs. rewrite H by lia. reflexivity.
Qed.

Lemma users_zero w n i : (forall s, pal w s <> Some i) -> users w n i = 0%nat.
Proof.
  intros H. unfold users. induction (seq 0 n) as [|s l IH]; [reflexivity|]. simpl.
  destruct (pal w s) as [j|] eqn:E; [|exact IH].
  destruct (j =? i)%nat eqn:E2; [|exact IH]. exfalso. apply (H s). rewrite E. f_equal. lia.
Qed.
Lemma users_pos w n s i : pal w s = Some i -> (s < n)%nat -> (1 <= users w n i)%nat.
Proof.
  intros E L. unfold users.
  assert (Hin : In s (filter (fun s => match pal w s with Some j => (j =? i)%nat | None => false end) (seq 0 n))).
  { apply filter_In. split; [apply in_seq; lia|]. rewrite E. apply Nat.eqb_refl. }
  destruct (filter _ _); [destruct Hin|simpl; lia].
Qed.

Definition is_assign (o : op) : bool := match o with Assign _ _ => true | _ => false end.

(* exact: no assignment was made *)
Definition inv (exact : bool) (w : world) : Prop :=
  exists n, (forall s, (n <= s)%nat -> pal w s = None) /\
  (forall s i, pal w s = Some i -> (i < made w)%nat) /\
  (forall i, (i < made w)%nat -> Z.of_nat (users w n i) <= refs w i /\
     (exact = true -> refs w i = Z.of_nat (users w n i)) /\
     deleted w i = (refs w i =? 0)) /\
  (forall i, (made w <= i)%nat -> deleted w i = false).

Lemma inv_step exact w o w' : inv exact w -> step w o = Some w' ->
  inv (exact && negb (is_assign o)) w'.
Proof.
  intros (n0 & I1 & I2 & I3 & I4) E.
  set (n := (n0 + S (match o with New s => s | Copy s t => s + t | Assign s t => s + t | Drop s => s end))%nat).
  assert (J1 : forall s, (n <= s)%nat -> pal w s = None) by (intros; apply I1; lia).
  assert (J3 : forall i, (i < made w)%nat -> Z.of_nat (users w n i) <= refs w i /\
     (exact = true -> refs w i = Z.of_nat (users w n i)) /\ deleted w i = (refs w i =? 0)).
  { intros i Hi. rewrite (users_more w n0 n i I1) by lia. apply I3. exact Hi. }
  clear I1 I3. exists n.
  destruct o as [s|s t|s t|s]; cbn [step] in E; cbn [is_assign negb].
  - destruct (pal w s) eqn:Es; [discriminate|]. injection E as <-. cbn [pal refs deleted made].
    rewrite andb_true_r.
    assert (U : forall i, users (mkW (upd (pal w) s (Some (made w))) (upd (refs w) (made w) 1) (upd (deleted w) (made w) false) (S (made w))) n i
       = (users w n i + if (made w =? i)%nat then 1 else 0)%nat).
    { intros i. unfold users. cbn [pal]. pose proof (filter_upd (pal w) s (Some (made w)) i n ltac:(lia)) as F. rewrite Es in F. lia. }
    split; [intros s' L; unfold upd; replace (s' =? s)%nat with false by lia; apply J1; lia|].
    split; [intros s' i; unfold upd; destruct (s' =? s)%nat; intros Q0; [injection Q0 as <-; lia|apply I2 in Q0; lia]|].
    split.
    + intros i Hi. rewrite U. unfold upd. destruct (i =? made w)%nat eqn:Ei.
      * apply Nat.eqb_eq in Ei. subst i. rewrite Nat.eqb_refl.
        rewrite users_zero by (intros s' Q0; apply I2 in Q0; lia). split; [simpl; lia|]. split; reflexivity.
      * replace (made w =? i)%nat with false by lia. rewrite Nat.add_0_r. apply J3. lia.
    + intros i Hi. unfold upd. destruct (i =? made w)%nat; [reflexivity|]. apply I4. lia.
  - destruct (pal w s) as [i0|] eqn:Es; [|discriminate]. destruct (pal w t) eqn:Et; [discriminate|].
    injection E as <-. cbn [pal refs deleted made]. rewrite andb_true_r.
    assert (I0 := I2 s i0 Es).
    assert (U : forall i, users (mkW (upd (pal w) t (Some i0)) (upd (refs w) i0 (refs w i0 + 1)) (deleted w) (made w)) n i
       = (users w n i + if (i0 =? i)%nat then 1 else 0)%nat).
    { intros i. unfold users. cbn [pal]. pose proof (filter_upd (pal w) t (Some i0) i n ltac:(lia)) as F. rewrite Et in F. lia. }
    split; [intros s' L; unfold upd; replace (s' =? t)%nat with false by lia; apply J1; lia|].
    split; [intros s' i; unfold upd; destruct (s' =? t)%nat; intros Q0; [injection Q0 as <-; lia|apply I2 in Q0; lia]|].
    split; [|exact I4].
    intros i Hi. rewrite U. unfold upd. destruct (J3 i Hi) as (K1 & K2 & K3). destruct (i =? i0)%nat eqn:Ei.
    + apply Nat.eqb_eq in Ei. subst i. rewrite Nat.eqb_refl.
      assert (UP := users_pos w n s i0 Es ltac:(lia)).
      split; [lia|]. split; [intros Q0; specialize (K2 Q0); lia|]. rewrite K3. lia.
    + replace (i0 =? i)%nat with false by lia. rewrite Nat.add_0_r. auto.
  - destruct (pal w s) as [i0|] eqn:Es; [|discriminate]. destruct (pal w t) as [it|] eqn:Et; [|discriminate].
    injection E as <-. cbn [pal refs deleted made]. rewrite andb_false_r.
    assert (I0 := I2 s i0 Es).
    assert (U : forall i, (users (mkW (upd (pal w) t (Some i0)) (upd (refs w) i0 (refs w i0 + 1)%Z) (deleted w) (made w)) n i
       <= users w n i + if (i0 =? i)%nat then 1 else 0)%nat).
    { intros i. unfold users. cbn [pal]. pose proof (filter_upd (pal w) t (Some i0) i n ltac:(lia)) as F. rewrite Et in F.
      destruct (it =? i)%nat; lia. }
    split; [intros s' L; unfold upd; replace (s' =? t)%nat with false by lia; apply J1; lia|].
    split; [intros s' i; unfold upd; destruct (s' =? t)%nat; intros Q0; [injection Q0 as <-; lia|apply I2 in Q0; lia]|].
    split; [|exact I4].
    intros i Hi. specialize (U i).
    match type of U with (?u <= _)%nat => set (un := u) in * end. clearbody un.
    unfold upd. destruct (J3 i Hi) as (K1 & K2 & K3). destruct (i =? i0)%nat eqn:Ei.
    + apply Nat.eqb_eq in Ei. subst i. rewrite Nat.eqb_refl in U.
      assert (UP := users_pos w n s i0 Es ltac:(lia)).
      split; [lia|]. split; [discriminate|]. rewrite K3. lia.
    + replace (i0 =? i)%nat with false in U by lia. split; [lia|]. split; [discriminate|exact K3].
  - destruct (pal w s) as [i0|] eqn:Es; [|discriminate].
    injection E as <-. cbn [pal refs deleted made]. rewrite andb_true_r.
    assert (I0 := I2 s i0 Es). assert (UP := users_pos w n s i0 Es ltac:(lia)).
    assert (U : forall W', pal W' = upd (pal w) s None -> forall i,
       (users W' n i + (if (i0 =? i)%nat then 1 else 0) = users w n i)%nat).
    { intros W' EW i. unfold users. rewrite EW. pose proof (filter_upd (pal w) s None i n ltac:(lia)) as F. rewrite Es in F. lia. }
    split; [intros s' L; unfold upd; replace (s' =? s)%nat with false by lia; apply J1; lia|].
    split; [intros s' i; unfold upd; destruct (s' =? s)%nat; intros Q0; [discriminate|apply I2 in Q0; lia]|].
    split.
    + intros i Hi. match goal with |- context [users ?W' n i] => specialize (U W' eq_refl i); set (u := users W' n i) in * end.
      clearbody u. destruct (J3 i Hi) as (K1 & K2 & K3). unfold upd. destruct (i =? i0)%nat eqn:Ei.
      * apply Nat.eqb_eq in Ei. subst i. rewrite Nat.eqb_refl in U.
        split; [lia|]. split; [intros Q0; specialize (K2 Q0); lia|].
        destruct (refs w i0 =? 1) eqn:E1; [rewrite Nat.eqb_refl|rewrite K3]; lia.
      * replace (i0 =? i)%nat with false in U by lia. split; [lia|]. split; [intros Q0; specialize (K2 Q0); lia|].
        destruct (refs w i0 =? 1); [rewrite Ei|]; exact K3.
    + intros i Hi. destruct (refs w i0 =? 1); [|apply I4; exact Hi]. unfold upd.
      replace (i =? i0)%nat with false by lia. apply I4. exact Hi.
Qed.

Lemma inv_steps l : forall exact w w', inv exact w -> steps w l = Some w' ->
  inv (exact && forallb (fun o => negb (is_assign o)) l) w'.
Proof.
  induction l as [|o l IH]; intros exact w w' Iw E; cbn [steps forallb] in *.
  - injection E as <-. rewrite andb_true_r. exact Iw.
  - destruct (step w o) as [w1|] eqn:E1; [|discriminate].
    rewrite andb_assoc. apply (IH _ w1 w'); [|exact E]. exact (inv_step _ _ _ _ Iw E1).
Qed.

Lemma inv_start : inv true no_world.
Proof.
  exists 0%nat. split; [reflexivity|]. split; [intros s i E; discriminate|].
  split; [intros i Hi; simpl in Hi; lia|reflexivity].
Qed.

(* C112: in every program, a palette that exists has its picture. *)
Theorem C112_not_deleted l w : steps no_world l = Some w ->
  forall s i, pal w s = Some i -> deleted w i = false.
Proof.
  intros E s i Es. destruct (inv_steps l _ _ _ inv_start E) as (n & I1 & I2 & I3 & _).
  destruct (I3 i (I2 s i Es)) as (A & _ & B). rewrite B.
  assert (L : (s < n)%nat) by (destruct (Nat.lt_ge_cases s n) as [|C]; [assumption|rewrite I1 in Es by exact C; discriminate]).
  assert (P := users_pos w n s i Es L). lia.
Qed.
Print Assumptions C112_not_deleted.

(* Without assignments a picture is deleted as soon as, and only when, its
   last palette is gone. *)
Theorem C112_released_partial l w : steps no_world l = Some w ->
  (forall s t, ~ In (Assign s t) l) ->
  forall i, deleted w i = true <-> ((i < made w)%nat /\ forall s, pal w s <> Some i).
Proof.
  intros E NA i.
  assert (Ex : forallb (fun o => negb (is_assign o)) l = true).
  { apply forallb_forall. intros o Ho. destruct o; try reflexivity. exfalso. eapply NA; exact Ho. }
  assert (Iw := inv_steps l _ _ _ inv_start E). rewrite Ex in Iw. destruct Iw as (n & I1 & I2 & I3 & I4).
  split.
  - intros D. destruct (Nat.lt_ge_cases i (made w)) as [L|L]; [|rewrite I4 in D by exact L; discriminate].
    split; [exact L|]. intros s Es. rewrite (C112_not_deleted l w E s i Es) in D. discriminate.
  - intros [L H]. destruct (I3 i L) as (_ & B & C). rewrite C, (B eq_refl), (users_zero w n i H). reflexivity.
Qed.
Print Assumptions C112_released_partial.

(* The assignment of a palette to another one keeps the old picture
   forever. *)
Theorem C112_leak_refuted : exists l w, steps no_world l = Some w /\ (forall s, pal w s = None) /\
  made w = 2%nat /\ deleted w 1%nat = false.
Proof.
  exists [New 0; New 1; Assign 0 1; Drop 0; Drop 1]. eexists. split; [reflexivity|].
  split; [|split; reflexivity]. intros s. cbn. unfold upd.
  destruct (s =? 1)%nat; [reflexivity|]. destruct (s =? 0)%nat; reflexivity.
Qed.
Print Assumptions C112_leak_refuted.

Example C112_case : exists w, steps no_world [New 3; Copy 3 4; Drop 3; Copy 4 5; Drop 4; Drop 5] = Some w /\
  deleted w 0%nat = true.
Proof. eexists. split; reflexivity. Qed.
