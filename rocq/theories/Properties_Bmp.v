(* C106, C107: picture files. *)
From Verif Require Import Lib Model_Bmp Spec_Bmp.
Open Scope Z_scope.

(* ---- little endian numbers *)
Lemma le_length n v : length (le n v) = n.
Proof. revert v; induction n; simpl; intros; auto. Qed.

Lemma le_val_le n v : 0 <= v < 256 ^ Z.of_nat n -> le_val (le n v) = v.
Proof.
  revert v; induction n as [|n IH]; intros v H.
  - simpl in *. lia.
  - cbn [le le_val fold_right]. change (fold_right _ 0 (le n (v / 256))) with (le_val (le n (v / 256))).
    rewrite IH.
    + pose proof (Z.div_mod v 256 ltac:(lia)). lia.
    + rewrite Nat2Z.inj_succ, Z.pow_succ_r in H by lia.
      split; [apply Z.div_pos; lia|]. apply Z.div_lt_upper_bound; lia.
Qed.

Lemma get_le n v s : 0 <= v < 256 ^ Z.of_nat n -> get n (le n v ++ s) = Some (v, s).
Proof.
  intros H. unfold get. rewrite app_length, le_length.
  replace (n + length s <? n)%nat with false by (symmetry; apply Nat.ltb_ge; lia).
  rewrite firstn_app, le_length, Nat.sub_diag, firstn_O, app_nil_r.
  rewrite firstn_all2 by (rewrite le_length; lia).
  rewrite skipn_app, le_length, Nat.sub_diag, skipn_O, skipn_all2 by (rewrite le_length; lia).
  rewrite le_val_le by exact H. reflexivity.
Qed.

(* ---- sizes *)
Lemma raise_S a f v : raise a (S f) v = if a v then raise a f (v + 1) else v.
Proof. reflexivity. Qed.

Lemma buffer_size_spec d w : 0 <= w * d -> row_size d w (buffer_size d w).
Proof.
  intros P. unfold buffer_size, row_size.
  remember (w * d) as n. clear Heqn.
  assert (E1 : raise (fun b => 8 * b <? n) 8 (n / 8) = (n + 7) / 8).
  { pose proof (Z.div_mod n 8 ltac:(lia)). pose proof (Z.mod_pos_bound n 8 ltac:(lia)).
    pose proof (Z.div_mod (n + 7) 8 ltac:(lia)). pose proof (Z.mod_pos_bound (n + 7) 8 ltac:(lia)).
    rewrite raise_S. destruct (8 * (n / 8) <? n) eqn:E.
    - apply Z.ltb_lt in E. rewrite raise_S.
      replace (8 * (n / 8 + 1) <? n) with false by (symmetry; apply Z.ltb_ge; lia). lia.
    - apply Z.ltb_ge in E. lia. }
  rewrite E1. set (c := (n + 7) / 8).
  assert (C : 8 * c < n + 8 /\ n <= 8 * c).
  { unfold c. pose proof (Z.div_mod (n + 7) 8 ltac:(lia)). pose proof (Z.mod_pos_bound (n + 7) 8 ltac:(lia)). lia. }
  clearbody c. clear E1.
  assert (E2 : raise (fun b => negb (b mod 4 =? 0)) 8 c = 4 * ((c + 3) / 4)).
  { pose proof (Z.div_mod c 4 ltac:(lia)) as D. pose proof (Z.mod_pos_bound c 4 ltac:(lia)) as B.
    pose proof (Z.div_mod (c + 3) 4 ltac:(lia)). pose proof (Z.mod_pos_bound (c + 3) 4 ltac:(lia)).
    set (q := c / 4) in *. clearbody q.
    assert (M : forall r, 0 <= r < 4 -> (4 * q + r) mod 4 = r).
    { intros r R. rewrite Z.add_comm, Z.mul_comm, Z_mod_plus_full. apply Z.mod_small. lia. }
    assert (R : c mod 4 = 0 \/ c mod 4 = 1 \/ c mod 4 = 2 \/ c mod 4 = 3) by lia.
    assert (Mq : (4 * (q + 1)) mod 4 = 0) by (rewrite Z.mul_comm; apply Z_mod_mult).
    assert (Q0 : 4 * ((c + 3) / 4) = if c mod 4 =? 0 then 4 * q else 4 * (q + 1))
      by (destruct (c mod 4 =? 0) eqn:?; lia).
    rewrite Q0. clear Q0.
    destruct R as [R|[R|[R|R]]]; rewrite R in D |- *; rewrite D; cbn [Z.eqb]; rewrite ?raise_S.
    - rewrite (M 0) by lia. simpl. lia.
    - rewrite (M 1) by lia. replace (4 * q + 1 + 1) with (4 * q + 2) by lia. rewrite (M 2) by lia.
      replace (4 * q + 2 + 1) with (4 * q + 3) by lia. rewrite (M 3) by lia.
      replace (4 * q + 3 + 1) with (4 * (q + 1)) by lia. rewrite Mq. cbn [negb Z.eqb]. lia.
    - rewrite (M 2) by lia.
      replace (4 * q + 2 + 1) with (4 * q + 3) by lia. rewrite (M 3) by lia.
      replace (4 * q + 3 + 1) with (4 * (q + 1)) by lia. rewrite Mq. cbn [negb Z.eqb]. lia.
    - rewrite (M 3) by lia.
      replace (4 * q + 3 + 1) with (4 * (q + 1)) by lia. rewrite Mq. cbn [negb Z.eqb]. lia. }
  rewrite E2.
  pose proof (Z.div_mod (c + 3) 4 ltac:(lia)). pose proof (Z.mod_pos_bound (c + 3) 4 ltac:(lia)).
  split; [rewrite Z.mul_comm; apply Z_mod_mult|]. split; [lia|].
  intros m M L. pose proof (Z.div_mod m 4 ltac:(lia)). lia.
Qed.

Lemma row_size_unique d w n m : row_size d w n -> row_size d w m -> n = m.
Proof. intros (A & B & C) (A' & B' & C'). specialize (C m A' B'). specialize (C' n A B). lia. Qed.

Lemma bytes_per_row_spec d w : row_size d w (bytes_per_row d w).
Proof.
  unfold bytes_per_row, row_size. set (n := w * d). clearbody n.
  set (c := - (- n / 8)).
  assert (C : 8 * c < n + 8 /\ n <= 8 * c).
  { unfold c. pose proof (Z.div_mod (- n) 8 ltac:(lia)). pose proof (Z.mod_pos_bound (- n) 8 ltac:(lia)). lia. }
  clearbody c.
  pose proof (Z.div_mod c 4 ltac:(lia)) as D. pose proof (Z.mod_pos_bound c 4 ltac:(lia)) as B.
  destruct (4 - c mod 4 =? 4) eqn:E.
  - apply Z.eqb_eq in E. split; [lia|]. split; [lia|].
    intros m M L. pose proof (Z.div_mod m 4 ltac:(lia)). lia.
  - apply Z.eqb_neq in E.
    replace (c + (4 - c mod 4)) with (4 * (c / 4 + 1)) by lia.
    split; [rewrite Z.mul_comm; apply Z_mod_mult|]. split; [lia|].
    intros m M L. pose proof (Z.div_mod m 4 ltac:(lia)). lia.
Qed.

Lemma sizes_agree d w : 0 <= w * d -> buffer_size d w = bytes_per_row d w.
Proof. intros P. exact (row_size_unique _ _ _ _ (buffer_size_spec d w P) (bytes_per_row_spec d w)). Qed.

Lemma row_size_nonneg d w n : 0 <= w * d -> row_size d w n -> 0 <= n.
Proof. intros P (A & B & C). lia. Qed.

(* ---- lists *)
Lemma nth_flat_map_const {A} (g : A -> list Z) k (l : list A) d i r (t : list Z) :
  (forall x, length (g x) = k) -> (i < length l)%nat -> (r < k)%nat ->
  nth (k * i + r) (flat_map g l ++ t) 0 = nth r (g (nth i l d)) 0.
Proof.
  intros G. revert i; induction l as [|x l IH]; intros i L R; simpl in L; [lia|].
  simpl flat_map. rewrite <- app_assoc. destruct i as [|i].
  - rewrite Nat.mul_0_r, Nat.add_0_l. rewrite app_nth1 by (rewrite G; lia). reflexivity.
  - rewrite app_nth2 by (rewrite G; lia). rewrite G.
    replace (k * S i + r - k)%nat with (k * i + r)%nat by lia.
    simpl nth at 2. apply IH; lia.
Qed.

Lemma flat_map_const_length {A} (g : A -> list Z) k (l : list A) :
  (forall x, In x l -> length (g x) = k) -> length (flat_map g l) = (k * length l)%nat.
Proof.
  intros G. induction l as [|x l IH]; simpl; [lia|].
  rewrite app_length, IH, (G x (or_introl eq_refl)); [lia|]. intros y Y; apply G; right; exact Y.
Qed.

Lemma down_length n : length (down n) = n.
Proof. induction n; simpl; auto. Qed.

Lemma row_length b j : length (row b j) = Z.to_nat (width b).
Proof. unfold row. rewrite map_length, seq_length. reflexivity. Qed.

Lemma row_nth b j i dflt : 0 <= i < width b -> nth (Z.to_nat i) (row b j) dflt = pixels b i j.
Proof.
  intros H. unfold row.
  rewrite (nth_indep _ dflt (pixels b (Z.of_nat 0) j)) by (rewrite map_length, seq_length; lia).
  rewrite (map_nth (fun i => pixels b (Z.of_nat i) j)).
  rewrite seq_nth by lia. f_equal. lia.
Qed.

(* ---- packing of colour numbers *)
Fixpoint all_lists (dom : list Z) (n : nat) : list (list Z) :=
  match n with
  | O => [[]]
  | S m => [] :: flat_map (fun x => map (cons x) (all_lists dom m)) dom
  end.
Lemma all_lists_in dom n l :
  Forall (fun x => In x dom) l -> (length l <= n)%nat -> In l (all_lists dom n).
Proof.
  revert l; induction n as [|n IH]; intros l F L.
  - destruct l; simpl in *; [auto|lia].
  - destruct l as [|x l]; simpl; [auto|]. right. apply in_flat_map. exists x.
    inversion F; subst. split; [assumption|]. apply in_map. apply IH; [assumption|simpl in L; lia].
Qed.

Definition group_ok (ws : list Z) (masks : list (Z * Z)) (l : list Z) : bool :=
  if list_eq_dec Z.eq_dec
       (firstn (length l) (unpack masks [fst (pack_group ws l 0) mod 256])) l
  then true else false.

Lemma groups4 : forallb (group_ok weights4 masks4)
                 (all_lists [0;1;2;3;4;5;6;7;8;9;10;11;12;13;14;15] 2) = true.
Proof. vm_compute. reflexivity. Qed.
Lemma groups1 : forallb (group_ok weights1 masks1) (all_lists [0;1] 8) = true.
Proof. vm_compute. reflexivity. Qed.

Lemma pack_group_split ws xs acc :
  pack_group ws xs acc =
  (fst (pack_group ws (firstn (length ws) xs) acc), skipn (length ws) xs).
Proof.
  revert xs acc; induction ws as [|w ws IH]; intros xs acc; simpl; [reflexivity|].
  destruct xs as [|x xs]; simpl; [reflexivity|]. rewrite IH. simpl. reflexivity.
Qed.

Lemma unpack_cons masks x r : unpack masks (x :: r) = unpack masks [x] ++ unpack masks r.
Proof. unfold unpack. simpl. rewrite app_nil_r. reflexivity. Qed.
Lemma unpack_one_length masks x : length (unpack masks [x]) = length masks.
Proof. unfold unpack. simpl. rewrite app_nil_r, map_length. reflexivity. Qed.

Lemma unpack_pack ws masks dom :
  length ws = length masks -> (0 < length ws)%nat ->
  forallb (group_ok ws masks) (all_lists dom (length ws)) = true ->
  forall fuel xs t, (length xs <= fuel)%nat -> Forall (fun x => In x dom) xs ->
  firstn (length xs) (unpack masks (pack fuel ws xs ++ t)) = xs.
Proof.
  intros E P K. rewrite forallb_forall in K.
  induction fuel as [|f IH]; intros xs t L F.
  - destruct xs; [reflexivity|simpl in L; lia].
  - destruct xs as [|x0 xs0]; [reflexivity|]. set (xs := x0 :: xs0) in *.
    assert (U : pack (S f) ws xs =
                fst (pack_group ws (firstn (length ws) xs) 0) mod 256
                :: pack f ws (skipn (length ws) xs)).
    { unfold xs at 1. cbn [pack]. rewrite pack_group_split. reflexivity. }
    rewrite U. rewrite <- app_comm_cons, unpack_cons.
    set (g := firstn (length ws) xs) in *.
    assert (Lg : (length g <= length ws)%nat) by (unfold g; rewrite firstn_length; lia).
    assert (Fg : Forall (fun x => In x dom) g).
    { unfold g. clear - F. revert F. generalize (length ws). clear.
      intros n F. revert n. induction F; intros [|n]; simpl; constructor; auto. }
    assert (G := K g (all_lists_in dom _ g Fg Lg)). unfold group_ok in G.
    destruct (list_eq_dec Z.eq_dec _ g) as [G'|]; [|discriminate]. clear G.
    set (u := unpack masks [fst (pack_group ws g 0) mod 256]) in *.
    assert (Lu : length u = length ws) by (unfold u; rewrite unpack_one_length; lia).
    rewrite firstn_app.
    destruct (le_lt_dec (length xs) (length ws)) as [S|S].
    + assert (g = xs) as Eg by (unfold g; apply firstn_all2; exact S).
      rewrite Lu. replace (length xs - length ws)%nat with 0%nat by lia.
      rewrite firstn_O, app_nil_r. rewrite <- Eg at 2. rewrite <- Eg. exact G'.
    + rewrite firstn_all2 by lia.
      assert (Lgg : length g = length ws) by (unfold g; rewrite firstn_length; lia).
      rewrite Lgg, <- Lu, firstn_all in G'.
      rewrite Lu.
      replace (length xs - length ws)%nat with (length (skipn (length ws) xs)) by (rewrite skipn_length; lia).
      rewrite IH.
      * rewrite G'. unfold g. apply firstn_skipn.
      * rewrite skipn_length. clear - L P. lia.
      * clear - F. revert F. generalize (length ws). clear.
        intros n F. revert n. induction F; intros [|n]; simpl; auto.
Qed.

Lemma nth_firstn_eq {A} (l : list A) n i d : (i < n)%nat -> nth i (firstn n l) d = nth i l d.
Proof.
  revert l i; induction n as [|n IH]; intros l i L; [lia|].
  destruct l as [|x l]; [reflexivity|]. destruct i as [|i]; simpl; [reflexivity|]. apply IH. lia.
Qed.

Lemma pack_length_le ws : (0 < length ws)%nat -> forall fuel xs,
  (length xs <= fuel)%nat -> (length ws * length (pack fuel ws xs) < length xs + length ws)%nat.
Proof.
  intros P. induction fuel as [|f IH]; intros xs L; simpl; [lia|].
  destruct xs as [|x xs]; [simpl; lia|].
  rewrite pack_group_split. cbn [fst snd length].
  assert (Ls : length (skipn (length ws) (x :: xs)) = (S (length xs) - length ws)%nat)
    by (rewrite skipn_length; reflexivity).
  specialize (IH (skipn (length ws) (x :: xs))). rewrite Ls in IH. simpl in L.
  specialize (IH ltac:(lia)).
  destruct (le_lt_dec (S (length xs)) (length ws)) as [H|H].
  - replace (skipn (length ws) (x :: xs)) with (@nil Z) in *
      by (symmetry; apply skipn_all2; simpl; lia).
    destruct f; simpl; lia.
  - lia.
Qed.

(* ---- nearest colours *)
Lemma get_color_in d cols k : In d [1; 4; 8] -> Z.of_nat (length cols) = 2 ^ d ->
  0 <= k < 2 ^ d -> get_color d cols k = nth (Z.to_nat k) cols white.
Proof.
  intros D L K. unfold get_color, ncolors.
  replace (negb ((d =? 1) || (d =? 4) || (d =? 8))) with false
    by (simpl in D; destruct D as [<-|[<-|[<-|[]]]]; reflexivity).
  destruct cols as [|c r]; [simpl in L; lia|].
  replace (2 ^ d <=? k) with false by (symmetry; apply Z.leb_gt; lia). reflexivity.
Qed.

Lemma cdist_nonneg a p : 0 <= cdist a p.
Proof.
  unfold cdist. pose proof (Z.square_nonneg (pr a - pr p)).
  pose proof (Z.square_nonneg (pg a - pg p)). pose proof (Z.square_nonneg (pb a - pb p)). lia.
Qed.

Lemma closest_loop_spec d cols p N :
  (forall k, 0 <= k < N -> cdist (get_color d cols k) p < 999999) -> N <= 256 ->
  forall n i best bestm, 0 <= i -> i + Z.of_nat n = N -> 0 < N ->
  (i = 0 -> bestm = 999999 /\ best = 0) ->
  (0 < i -> 0 <= best < i /\ bestm = cdist (get_color d cols best) p /\
            forall k, 0 <= k < i -> bestm <= cdist (get_color d cols k) p) ->
  let r := closest_loop d cols p n i best bestm in
  0 <= r < N /\ forall k, 0 <= k < N -> cdist (get_color d cols r) p <= cdist (get_color d cols k) p.
Proof.
  intros Hd HN. induction n as [|n IH]; intros i best bestm I E PN Z0 Zp.
  - simpl. assert (i = N) by lia. subst i. destruct (Zp PN) as (A & B & C).
    split; [exact A|]. intros k K. rewrite <- B. apply C. exact K.
  - cbn [closest_loop].
    set (t := cdist (get_color d cols i) p).
    assert (Ti : t < 999999) by (apply Hd; lia).
    assert (M : i mod 256 = i) by (apply Z.mod_small; lia). rewrite M.
    set (best' := if t <? bestm then i else best).
    set (bestm' := if t <? bestm then t else bestm).
    assert (Inv : 0 <= best' < i + 1 /\ bestm' = cdist (get_color d cols best') p /\
                  forall k, 0 <= k < i + 1 -> bestm' <= cdist (get_color d cols k) p).
    { unfold best', bestm'. destruct (Z.eq_dec i 0) as [Ei|Ni].
      - destruct (Z0 Ei) as [-> ->]. replace (t <? 999999) with true by (symmetry; apply Z.ltb_lt; lia).
        split; [lia|]. split; [reflexivity|]. intros k K. assert (k = i) by lia. subst k. unfold t. lia.
      - destruct (Zp ltac:(lia)) as (A & B & C). destruct (t <? bestm) eqn:Et.
        + apply Z.ltb_lt in Et. split; [lia|]. split; [reflexivity|].
          intros k K. destruct (Z.eq_dec k i) as [Ek|Nk]; [subst k; unfold t; lia|].
          specialize (C k ltac:(lia)). lia.
        + apply Z.ltb_ge in Et. split; [lia|]. split; [exact B|].
          intros k K. destruct (Z.eq_dec k i) as [Ek|Nk]; [subst k; unfold t in Et; lia|].
          apply C. lia. }
    destruct (bestm' <? 1) eqn:Eb.
    + apply Z.ltb_lt in Eb. destruct Inv as (A & B & C). split; [lia|].
      intros k K. rewrite <- B. assert (0 <= cdist (get_color d cols k) p) by (apply cdist_nonneg).
      clearbody bestm'. clear - Eb H. lia.
    + apply IH; try lia. intros _. exact Inv.
Qed.

Lemma cdist_bound a p : is_colour a -> is_colour p -> cdist a p < 999999.
Proof.
  intros (A1 & A2 & A3 & _) (B1 & B2 & B3 & _). unfold is_byte, cdist in *.
  assert (S : forall x y, 0 <= x < 256 -> 0 <= y < 256 -> (x - y) * (x - y) <= 65025) by (intros; nia).
  pose proof (S _ _ A1 B1). pose proof (S _ _ A2 B2). pose proof (S _ _ A3 B3). lia.
Qed.

Lemma closest_spec d cols p : In d [1; 4; 8] -> Z.of_nat (length cols) = 2 ^ d ->
  Forall is_colour cols -> is_colour p ->
  0 <= closest d cols p < 2 ^ d /\ nearest cols p (get_color d cols (closest d cols p)).
Proof.
  intros D L F P.
  assert (N : 0 < 2 ^ d <= 256)
    by (simpl in D; destruct D as [<-|[<-|[<-|[]]]]; vm_compute; split; congruence).
  assert (G : forall k, 0 <= k < 2 ^ d -> In (get_color d cols k) cols).
  { intros k K. rewrite (get_color_in d cols k D L K). apply nth_In. lia. }
  destruct (closest_loop_spec d cols p (2 ^ d)) with
    (n := Z.to_nat (ncolors d)) (i := 0) (best := 0) (bestm := 999999) as [R M].
  - intros k K. apply cdist_bound; [|exact P]. rewrite Forall_forall in F. apply F. apply G. exact K.
  - lia.
  - lia.
  - unfold ncolors. lia.
  - lia.
  - auto.
  - lia.
  - fold (closest d cols p) in R, M. split; [exact R|]. split; [apply G; exact R|].
    intros c C. apply In_nth with (d := white) in C. destruct C as (m & Lm & Em).
    specialize (M (Z.of_nat m) ltac:(lia)).
    rewrite (get_color_in d cols (Z.of_nat m) D L ltac:(lia)), Nat2Z.id, Em in M.
    unfold far. unfold cdist in M. nia.
Qed.

(* ---- the table *)
Lemma read_colors_bytes cols tbl s : length tbl = length cols ->
  read_colors (length cols) (flat_map px_bytes cols ++ s) tbl = (cols, s).
Proof.
  revert tbl; induction cols as [|c cols IH]; intros tbl L.
  - destruct tbl; [reflexivity|discriminate].
  - destruct tbl as [|t tbl]; [discriminate|]. simpl in L.
    simpl. rewrite IH by lia. simpl. destruct c; reflexivity.
Qed.

Lemma standard_length d : In d [1; 4; 8] -> Z.of_nat (length (standard_table d)) = 2 ^ d.
Proof. simpl. intros [<-|[<-|[<-|[]]]]; vm_compute; reflexivity. Qed.

(* ---- rows *)
Lemma read_rows_blocks d w cols (blk : Z -> list Z) n :
  (forall j, 0 <= j < Z.of_nat n -> length (blk j) = Z.to_nat (buffer_size d w)) ->
  forall t f i j,
  read_rows d w cols n (flat_map blk (down n) ++ t) f i j =
  (if (0 <=? j) && (j <? Z.of_nat n) && (0 <=? i) && (i <? w)
   then decode d cols (blk j) i (f i j) else f i j).
Proof.
  induction n as [|n IH]; intros H t f i j.
  - simpl. replace ((0 <=? j) && (j <? 0)) with false by lia. reflexivity.
  - cbn [down flat_map read_rows]. rewrite <- app_assoc.
    set (size := Z.to_nat (buffer_size d w)) in *.
    assert (Lb : length (blk (Z.of_nat n)) = size) by (apply H; lia).
    rewrite app_length, Lb.
    replace (size + length (flat_map blk (down n) ++ t) <? size)%nat with false
      by (symmetry; apply Nat.ltb_ge; lia).
    rewrite skipn_app, Lb, Nat.sub_diag, skipn_O, skipn_all2 by lia. cbn [app].
    rewrite firstn_app, Lb, Nat.sub_diag, firstn_O, app_nil_r, firstn_all2 by lia.
    rewrite IH by (intros k K; apply H; lia).
    destruct (Z.eq_dec j (Z.of_nat n)) as [E|N].
    + subst j. replace (Z.of_nat n <? Z.of_nat n) with false by lia.
      rewrite andb_false_r. cbn [andb].
      replace (0 <=? Z.of_nat n) with true by lia.
      replace (Z.of_nat n <? Z.of_nat (S n)) with true by lia.
      rewrite Z.eqb_refl. cbn [andb]. reflexivity.
    + replace (j =? Z.of_nat n) with false by lia. cbn [andb].
      replace (j <? Z.of_nat (S n)) with (j <? Z.of_nat n) by lia. reflexivity.
Qed.

(* ---- depth 16 *)
Lemma read_row16_words rm gm bm j (l : list px) : forall i s f,
  exists f', read_row16 rm gm bm (length l) i j (flat_map (fun p => le 2 (word16 p)) l ++ s) f = Some (f', s)
  /\ ((forall p, In p l -> 0 <= word16 p < 65536) -> forall i' j', f' i' j' =
      if (j' =? j) && (i <=? i') && (i' <? i + Z.of_nat (length l))
      then let p := nth (Z.to_nat (i' - i)) l white in
           mkPx (channel16 bm (word16 p)) (channel16 gm (word16 p)) (channel16 rm (word16 p))
                (pa (f i' j'))
      else f i' j').
Proof.
  induction l as [|p l IH]; intros i s f.
  - exists f. split; [reflexivity|]. intros _ i' j'. simpl.
    replace ((i <=? i') && (i' <? i + 0)) with false by lia. 
    rewrite <- andb_assoc. replace ((i <=? i') && (i' <? i + 0)) with false by lia.
    rewrite andb_false_r. reflexivity.
  - cbn [length flat_map read_row16]. rewrite <- app_assoc.
    unfold get. rewrite app_length, le_length.
    replace (2 + _ <? 2)%nat with false by reflexivity.
    rewrite firstn_app, le_length, Nat.sub_diag, firstn_O, app_nil_r.
    rewrite firstn_all2 by (rewrite le_length; lia).
    rewrite skipn_app, le_length, Nat.sub_diag, skipn_O, skipn_all2 by (rewrite le_length; lia).
    cbn [app].
    edestruct (IH (i + 1) s) as (f' & R & V). rewrite R. exists f'. split; [reflexivity|].
    intros W i' j'. rewrite V by (intros q Q; apply W; right; exact Q).
    rewrite le_val_le by (apply W; left; reflexivity).
    destruct (j' =? j) eqn:Ej; cbn [andb].
    2:{ rewrite andb_false_r. reflexivity. }
    destruct (Z.eq_dec i' i) as [Ei|Ni].
    + subst i'. replace (i + 1 <=? i) with false by lia. cbn [andb].
      rewrite Z.eqb_refl, Z.leb_refl. cbn [andb].
      replace (i <? i + Z.of_nat (S (length l))) with true by lia.
      rewrite Z.sub_diag. reflexivity.
    + replace (i' =? i) with false by lia. cbn [andb].
      replace (i' <? i + Z.of_nat (S (length l))) with (i' <? i + 1 + Z.of_nat (length l)) by lia.
      replace (i + 1 <=? i') with (i <=? i') by lia.
      destruct ((i <=? i') && (i' <? i + 1 + Z.of_nat (length l))) eqn:Eb; [|reflexivity].
      replace (Z.to_nat (i' - i)) with (S (Z.to_nat (i' - (i + 1)))) by lia. reflexivity.
Qed.

Lemma read_rows16_blocks rm gm bm b (pad : Z -> list Z) n :
  (forall j, length (pad j) = Z.to_nat (padding16 (width b))) ->
  0 < width b ->
  (forall i j, 0 <= i < width b -> 0 <= j < Z.of_nat n -> 0 <= word16 (pixels b i j) < 65536) ->
  forall t f, exists f',
  read_rows16 rm gm bm (width b) n
    (flat_map (fun j => flat_map (fun p => le 2 (word16 p)) (row b j) ++ pad j) (down n) ++ t) f = Some f'
  /\ forall i j, f' i j =
     if (0 <=? j) && (j <? Z.of_nat n) && (0 <=? i) && (i <? width b)
     then mkPx (channel16 bm (word16 (pixels b i j))) (channel16 gm (word16 (pixels b i j)))
               (channel16 rm (word16 (pixels b i j))) (pa (f i j))
     else f i j.
Proof.
  intros LP W0. induction n as [|n IH]; intros W t f.
  - exists f. split; [reflexivity|]. intros i j. replace ((0 <=? j) && (j <? Z.of_nat 0)) with false by lia. reflexivity.
  - cbn [down flat_map read_rows16]. rewrite <- !app_assoc.
    edestruct (read_row16_words rm gm bm (Z.of_nat n) (row b (Z.of_nat n)) 0) as (f1 & R & V).
    rewrite row_length in R. rewrite R.
    rewrite skipn_app, LP, Nat.sub_diag, skipn_O, skipn_all2 by (rewrite LP; lia). cbn [app].
    edestruct (IH) as (f2 & R2 & V2); [intros i j A B; apply W; lia|]. rewrite R2. exists f2. split; [reflexivity|].
    intros i j. rewrite V2, V.
    2:{ intros p P. unfold row in P. apply in_map_iff in P. destruct P as (k & <- & K).
        apply in_seq in K. apply W; lia. }
    rewrite row_length, Z2Nat.id by lia.
    destruct (Z.eq_dec j (Z.of_nat n)) as [E|N].
    + subst j. replace (Z.of_nat n <? Z.of_nat n) with false by lia.
      rewrite andb_false_r. cbn [andb]. rewrite Z.eqb_refl. cbn [andb].
      replace (0 <=? Z.of_nat n) with true by lia.
      replace (Z.of_nat n <? Z.of_nat (S n)) with true by lia. cbn [andb].
      rewrite Z.add_0_l. destruct ((0 <=? i) && (i <? width b)) eqn:Eb; [|reflexivity].
      rewrite Z.sub_0_r, row_nth by lia. reflexivity.
    + replace (j =? Z.of_nat n) with false by lia. cbn [andb].
      replace (j <? Z.of_nat (S n)) with (j <? Z.of_nat n) by lia.
      reflexivity.
Qed.

Lemma word16_parts p : is_colour p ->
  word16 p = 2048 * (pr p / 8) + 32 * (pg p / 4) + pb p / 8 /\
  0 <= pr p / 8 < 32 /\ 0 <= pg p / 4 < 64 /\ 0 <= pb p / 8 < 32.
Proof.
  intros (A & B & C & _). unfold is_byte in *. unfold word16.
  rewrite !Z.shiftl_mul_pow2 by lia. change (2 ^ 11) with 2048. change (2 ^ 5) with 32.
  split; [lia|].
  repeat split; try (apply Z.div_pos; lia); apply Z.div_lt_upper_bound; lia.
Qed.

Lemma shift_red : mask_shift 16 63488 = 11. Proof. reflexivity. Qed.
Lemma shift_green : mask_shift 16 2016 = 6. Proof. reflexivity. Qed.
Lemma shift_blue : mask_shift 16 31 = 0. Proof. reflexivity. Qed.

Lemma channel_value mask v k : 0 <= v -> mask_shift 16 mask = k -> 0 <= k ->
  Z.shiftr mask k = 31 -> channel16 mask v = 8 * ((v / 2 ^ k) mod 32).
Proof.
  intros V K P M. unfold channel16. rewrite K, Z.shiftr_land, M.
  change 31 with (Z.ones 5). rewrite Z.land_comm, Z.land_ones by lia.
  rewrite Z.shiftr_div_pow2 by lia. change (2 ^ 5) with 32.
  pose proof (Z.mod_pos_bound (v / 2 ^ k) 32 ltac:(lia)).
  apply Z.mod_small. lia.
Qed.

Lemma channels p : is_colour p ->
  channel16 63488 (word16 p) = 8 * (pr p / 8) /\
  channel16 2016 (word16 p) = 8 * (pg p / 8) /\
  channel16 31 (word16 p) = 8 * (pb p / 8).
Proof.
  intros P. destruct (word16_parts p P) as (E & R & G & B).
  assert (G8 : pg p / 8 = (pg p / 4) / 2) by (rewrite Z.div_div by lia; reflexivity).
  set (r := pr p / 8) in *. set (g := pg p / 4) in *. set (c := pb p / 8) in *.
  assert (V : 0 <= word16 p) by lia.
  rewrite (channel_value 63488 _ 11 V shift_red ltac:(lia) eq_refl).
  rewrite (channel_value 2016 _ 6 V shift_green ltac:(lia) eq_refl).
  rewrite (channel_value 31 _ 0 V shift_blue ltac:(lia) eq_refl).
  rewrite E. clearbody r g c.
  change (2 ^ 11) with 2048. change (2 ^ 6) with 64. change (2 ^ 0) with 1.
  split; [|split].
  - f_equal. replace (2048 * r + 32 * g + c) with (r * 2048 + (32 * g + c)) by lia.
    rewrite Z.div_add_l, (Z.div_small (32 * g + c)) by lia. rewrite Z.add_0_r. apply Z.mod_small. lia.
  - f_equal. rewrite G8.
    pose proof (Z.div_mod g 2 ltac:(lia)). pose proof (Z.mod_pos_bound g 2 ltac:(lia)).
    replace (2048 * r + 32 * g + c) with ((r * 32 + g / 2) * 64 + (32 * (g mod 2) + c)) by lia.
    rewrite Z.div_add_l, (Z.div_small (32 * _ + c)) by lia. rewrite Z.add_0_r.
    rewrite Z.add_comm, Z_mod_plus_full. apply Z.mod_small. lia.
  - f_equal. rewrite Z.div_1_r.
    replace (2048 * r + 32 * g + c) with (c + (64 * r + g) * 32) by lia.
    rewrite Z_mod_plus_full. apply Z.mod_small. lia.
Qed.

(* ---- headers *)
Definition table_room (d : Z) : Z := if d <? 16 then 4 * 2 ^ d else if d =? 16 then 12 else 0.

Lemma table_size_room d : In d [1; 4; 8; 16; 24; 32] -> table_size d = table_room d.
Proof. simpl. intros [<-|[<-|[<-|[<-|[<-|[<-|[]]]]]]]; reflexivity. Qed.

Lemma depth_pos d : In d [1; 4; 8; 16; 24; 32] -> 1 <= d <= 32.
Proof. simpl. intros [<-|[<-|[<-|[<-|[<-|[<-|[]]]]]]]; lia. Qed.

Lemma table_room_nonneg d : In d [1; 4; 8; 16; 24; 32] -> 0 <= table_room d <= 1024.
Proof. simpl. intros [<-|[<-|[<-|[<-|[<-|[<-|[]]]]]]]; vm_compute; split; congruence. Qed.

Lemma some_inj {A} (a b : A) : Some a = Some b -> a = b.
Proof. congruence. Qed.

Lemma write_some z pad b f : picture b -> write z pad b = Some f ->
  let n := buffer_size (depth b) (width b) in
  row_size (depth b) (width b) n /\ 0 <= n /\
  width b * depth b < 2 ^ 31 /\ 54 + table_room (depth b) + height b * n < 2 ^ 32 /\
  f = headers b ++ flat_map px_bytes (if depth b <? 16 then colors b else []) ++
      (if depth b =? 16 then pixels16 b z pad
       else flat_map (fun j => padded n (row_bytes (depth b) (colors b) (row b j)))
                     (down (Z.to_nat (height b)))).
Proof.
  intros (W & H & D & P & C & _) E n.
  assert (DP := depth_pos _ D). assert (WD : 0 <= width b * depth b) by nia.
  assert (RS := buffer_size_spec (depth b) (width b) WD). fold n in RS.
  split; [exact RS|]. split; [exact (row_size_nonneg _ _ _ WD RS)|].
  unfold write in E.
  destruct (2 ^ 31 <=? width b * depth b) eqn:E1; [discriminate|].
  destruct (2 ^ 32 <=? total_size (depth b) (width b) (height b)) eqn:E2; [discriminate|].
  cbn [orb] in E. split; [lia|]. split.
  - unfold total_size in E2. rewrite (table_size_room _ D), <- (sizes_agree _ _ WD) in E2. fold n in E2. lia.
  - apply some_inj in E. rewrite <- E. clear E f.
    assert (S : (depth b =? 1) || (depth b =? 4) || (depth b =? 8) = (depth b <? 16)).
    { clear - D. simpl in D. destruct D as [<-|[<-|[<-|[<-|[<-|[<-|[]]]]]]]; reflexivity. }
    rewrite S. destruct (depth b <? 16) eqn:E3.
    + destruct (C ltac:(lia)) as [_ L]. destruct (colors b) eqn:EC.
      { simpl in L. pose proof (Z.pow_pos_nonneg 2 (depth b) ltac:(lia) ltac:(lia)). lia. }
      reflexivity.
    + f_equal. f_equal. destruct (depth b =? 16) eqn:E4; [reflexivity|].
      assert (X : depth b = 24 \/ depth b = 32).
      { clear - D E3 E4. simpl in D. lia. }
      assert (R : forall r, row_bytes (depth b) [] r = row_bytes (depth b) (colors b) r).
      { intros r. unfold row_bytes. destruct X as [-> | ->]; cbn [Z.eqb Pos.eqb]; reflexivity. }
      fold n. apply flat_map_ext. intros j. rewrite R. reflexivity.
Qed.

Lemma headers_length b : length (headers b) = 54%nat.
Proof. reflexivity. Qed.

Definition header_of (b : bmp) : header :=
  mkHd (54 + table_room (depth b)) (width b) (height b) (depth b)
       (if depth b =? 16 then 3 else 0)
       (if xppm b =? 0 then 3780 else xppm b) (if yppm b =? 0 then 3780 else yppm b).

Lemma headers_read b rest : picture b ->
  54 + table_room (depth b) + height b * buffer_size (depth b) (width b) < 2 ^ 32 ->
  exists s, get 2 (headers b ++ rest) = Some (19778, s) /\
            get_headers s = Some (header_of b, rest).
Proof.
  intros (W & H & D & P & C & X & Y) T.
  assert (DP := depth_pos _ D). assert (WD : 0 <= width b * depth b) by nia.
  assert (RS := buffer_size_spec (depth b) (width b) WD).
  assert (N0 := row_size_nonneg _ _ _ WD RS).
  assert (TR := table_room_nonneg _ D).
  unfold headers. rewrite <- (sizes_agree _ _ WD). unfold total_size. rewrite <- (sizes_agree _ _ WD).
  rewrite (table_size_room _ D). rewrite <- !app_assoc.
  set (n := buffer_size (depth b) (width b)) in *. clearbody n.
  eexists. split; [apply get_le; simpl; lia|].
  unfold get_headers.
  assert (G4 : forall v s, 0 <= v < 2 ^ 32 -> get 4 (le 4 v ++ s) = Some (v, s)).
  { intros v s V. apply get_le. simpl Z.of_nat. change (256 ^ 4) with (2 ^ 32). exact V. }
  assert (G2 : forall v s, 0 <= v < 2 ^ 16 -> get 2 (le 2 v ++ s) = Some (v, s)).
  { intros v s V. apply get_le. simpl Z.of_nat. change (256 ^ 2) with (2 ^ 16). exact V. }
  assert (B : 0 <= height b * n) by nia.
  rewrite G4 by nia. rewrite G2 by lia. rewrite G2 by lia. rewrite G4 by lia.
  rewrite G4 by lia. rewrite G4 by lia. rewrite G4 by lia. rewrite G2 by lia. rewrite G2 by lia.
  rewrite G4 by (destruct (depth b =? 16); lia). rewrite G4 by nia.
  rewrite G4 by (destruct (xppm b =? 0); lia). rewrite G4 by (destruct (yppm b =? 0); lia).
  rewrite G4 by lia. rewrite G4 by lia.
  reflexivity.
Qed.

(* ---- the bytes of a row *)
Lemma row_bytes_length d cols r n : In d [1; 4; 8; 24; 32] ->
  Z.of_nat (length r) * d <= 8 * n -> (length (row_bytes d cols r) <= Z.to_nat n)%nat.
Proof.
  intros D L. simpl in D. unfold row_bytes. destruct D as [<-|[<-|[<-|[<-|[<-|[]]]]]]; cbn [Z.eqb Pos.eqb].
  - pose proof (pack_length_le weights1 ltac:(simpl; lia) (length r) (map (closest 1 cols) r)) as Q.
    rewrite map_length in Q. specialize (Q (le_n _)). change (length weights1) with 8%nat in Q. lia.
  - pose proof (pack_length_le weights4 ltac:(simpl; lia) (length r) (map (closest 4 cols) r)) as Q.
    rewrite map_length in Q. specialize (Q (le_n _)). change (length weights4) with 2%nat in Q. lia.
  - rewrite map_length. lia.
  - rewrite (flat_map_const_length _ 3) by reflexivity. lia.
  - rewrite (flat_map_const_length _ 4) by reflexivity. lia.
Qed.

Lemma padded_length n l : (length l <= Z.to_nat n)%nat -> length (padded n l) = Z.to_nat n.
Proof. intros L. unfold padded. rewrite app_length, repeat_length. lia. Qed.

Lemma depth_cases d : In d [1; 4; 8; 16; 24; 32] -> d <> 16 -> In d [1; 4; 8; 24; 32].
Proof. simpl. intuition. Qed.

Lemma block_length b j n : picture b -> depth b <> 16 ->
  row_size (depth b) (width b) n ->
  length (padded n (row_bytes (depth b) (colors b) (row b j))) = Z.to_nat n.
Proof.
  intros (W & H & D & _) N (_ & R & _). apply padded_length.
  apply row_bytes_length; [exact (depth_cases _ D N)|]. rewrite row_length. lia.
Qed.

Lemma decode_row b j n i old : picture b -> depth b <> 16 -> inside b i j ->
  row_size (depth b) (width b) n -> 
  stored (depth b) (colors b) (pixels b i j)
    (decode (depth b) (colors b) (padded n (row_bytes (depth b) (colors b) (row b j))) i old).
Proof.
  intros Hp N I RS. destruct Hp as (W & H & D & P & C & _).
  assert (Pij := P i j I). destruct I as [I J].
  assert (D' := depth_cases _ D N). clear N.
  assert (LR : (Z.to_nat i < length (row b j))%nat) by (rewrite row_length; lia).
  assert (IR : forall q, nth (Z.to_nat i) (row b j) q = pixels b i j) by (intros; apply row_nth; lia).
  unfold stored, decode, row_bytes, padded.
  simpl in D'. destruct D' as [E|[E|[E|[E|[E|[]]]]]]; rewrite <- E in *; cbn [Z.eqb Pos.eqb];
    (split; [intros X0; try discriminate X0; clear X0|
     split; [intros X0; try discriminate X0; clear X0|
     split; [intros X0; try discriminate X0; clear X0|
     intros X0; try (exfalso; lia); clear X0]]]).
  - (* 1 *)
    destruct (C ltac:(lia)) as [FC LC].
    assert (K := closest_spec 1 (colors b) (pixels b i j) ltac:(simpl; auto) LC FC Pij).
    replace (nth (Z.to_nat i) (unpack masks1 _) 0) with (closest 1 (colors b) (pixels b i j)); [apply K|].
    set (t := repeat 0 _).
    assert (U := unpack_pack weights1 masks1 [0;1] eq_refl ltac:(simpl; lia) groups1
                   (length (row b j)) (map (closest 1 (colors b)) (row b j)) t).
    rewrite map_length in U. specialize (U (le_n _)).
    rewrite <- (nth_firstn_eq _ (length (row b j))) by exact LR. rewrite U.
    + rewrite (nth_indep _ 0 (closest 1 (colors b) white)) by (rewrite map_length; exact LR).
      rewrite map_nth, IR. reflexivity.
    + apply Forall_forall. intros x X. apply in_map_iff in X. destruct X as (p & <- & Q).
      unfold row in Q. apply in_map_iff in Q. destruct Q as (k & <- & Q). apply in_seq in Q.
      assert (Pk := P (Z.of_nat k) j ltac:(unfold inside; lia)).
      destruct (closest_spec 1 (colors b) _ ltac:(simpl; auto) LC FC Pk) as [B _].
      change (2 ^ 1) with 2 in B. simpl. lia.
  - (* 4 *)
    destruct (C ltac:(lia)) as [FC LC].
    assert (K := closest_spec 4 (colors b) (pixels b i j) ltac:(simpl; auto) LC FC Pij).
    replace (nth (Z.to_nat i) (unpack masks4 _) 0) with (closest 4 (colors b) (pixels b i j)); [apply K|].
    set (t := repeat 0 _).
    assert (U := unpack_pack weights4 masks4 [0;1;2;3;4;5;6;7;8;9;10;11;12;13;14;15] eq_refl
                   ltac:(simpl; lia) groups4
                   (length (row b j)) (map (closest 4 (colors b)) (row b j)) t).
    rewrite map_length in U. specialize (U (le_n _)).
    rewrite <- (nth_firstn_eq _ (length (row b j))) by exact LR. rewrite U.
    + rewrite (nth_indep _ 0 (closest 4 (colors b) white)) by (rewrite map_length; exact LR).
      rewrite map_nth, IR. reflexivity.
    + apply Forall_forall. intros x X. apply in_map_iff in X. destruct X as (p & <- & Q).
      unfold row in Q. apply in_map_iff in Q. destruct Q as (k & <- & Q). apply in_seq in Q.
      assert (Pk := P (Z.of_nat k) j ltac:(unfold inside; lia)).
      destruct (closest_spec 4 (colors b) _ ltac:(simpl; auto) LC FC Pk) as [B _].
      change (2 ^ 4) with 16 in B. simpl. lia.
  - (* 8 *)
    destruct (C ltac:(lia)) as [FC LC].
    assert (K := closest_spec 8 (colors b) (pixels b i j) ltac:(simpl; auto) LC FC Pij).
    rewrite app_nth1 by (rewrite map_length; exact LR).
    rewrite (nth_indep _ 0 (closest 8 (colors b) white)) by (rewrite map_length; exact LR).
    rewrite map_nth, IR. apply K.
  - (* 24 *)
    cbn [pr pg pb].
    assert (Q : forall r, (r < 3)%nat ->
       nth (Z.to_nat (3 * i + Z.of_nat r))
           (flat_map (fun p => [pb p; pg p; pr p]) (row b j) ++
            repeat 0 (Z.to_nat n - length (flat_map (fun p => [pb p; pg p; pr p]) (row b j)))) 0 =
       nth r [pb (pixels b i j); pg (pixels b i j); pr (pixels b i j)] 0).
    { intros r R. replace (Z.to_nat (3 * i + Z.of_nat r)) with (3 * Z.to_nat i + r)%nat by lia.
      rewrite (nth_flat_map_const _ 3 _ white) by (auto; try reflexivity). rewrite IR. reflexivity. }
    assert (Q0 := Q 0%nat ltac:(lia)). assert (Q1 := Q 1%nat ltac:(lia)). assert (Q2 := Q 2%nat ltac:(lia)).
    change (Z.of_nat 0) with 0 in Q0. rewrite Z.add_0_r in Q0.
    change (Z.of_nat 1) with 1 in Q1. change (Z.of_nat 2) with 2 in Q2.
    split; [exact Q2|]. split; [exact Q1|exact Q0].
  - (* 32 *)
    assert (Q : forall r, (r < 4)%nat ->
       nth (Z.to_nat (4 * i + Z.of_nat r))
           (flat_map px_bytes (row b j) ++
            repeat 0 (Z.to_nat n - length (flat_map px_bytes (row b j)))) 0 =
       nth r (px_bytes (pixels b i j)) 0).
    { intros r R. replace (Z.to_nat (4 * i + Z.of_nat r)) with (4 * Z.to_nat i + r)%nat by lia.
      rewrite (nth_flat_map_const _ 4 _ white) by (auto; try reflexivity). rewrite IR. reflexivity. }
    assert (Q0 := Q 0%nat ltac:(lia)). assert (Q1 := Q 1%nat ltac:(lia)).
    assert (Q2 := Q 2%nat ltac:(lia)). assert (Q3 := Q 3%nat ltac:(lia)).
    change (Z.of_nat 0) with 0 in Q0. rewrite Z.add_0_r in Q0.
    change (Z.of_nat 1) with 1 in Q1. change (Z.of_nat 2) with 2 in Q2. change (Z.of_nat 3) with 3 in Q3.
    rewrite Q0, Q1, Q2, Q3. destruct (pixels b i j); reflexivity.
Qed.

Lemma get_pixel_inside b i j : inside b i j -> get_pixel b i j = pixels b i j.
Proof.
  intros [I J]. unfold get_pixel.
  replace (width b <=? i) with false by lia. replace (i <? 0) with false by lia.
  replace (height b <=? j) with false by lia. replace (j <? 0) with false by lia. reflexivity.
Qed.

Lemma s32_small v : 0 <= v < 2 ^ 31 -> s32 v = v.
Proof. intros V. unfold s32. replace (2 ^ 31 <=? v) with false by lia. reflexivity. Qed.

(* C107: what is written reads back. *)
Theorem C107_read_back z pad b f b0 : picture b -> write z pad b = Some f ->
  exists b', read b0 f = Some (true, b') /\
  depth b' = depth b /\ width b' = width b /\ height b' = height b /\
  (depth b < 16 -> colors b' = colors b) /\
  forall i j, inside b i j -> stored (depth b) (colors b) (pixels b i j) (get_pixel b' i j).
Proof.
  intros Hp E. destruct (write_some z pad b f Hp E) as (RS & N0 & WD & T & ->).
  set (n := buffer_size (depth b) (width b)) in *.
  destruct (headers_read b (flat_map px_bytes (if depth b <? 16 then colors b else []) ++
      (if depth b =? 16 then pixels16 b z pad
       else flat_map (fun j => padded n (row_bytes (depth b) (colors b) (row b j)))
                     (down (Z.to_nat (height b))))) Hp T) as (s & G & GH).
  assert (Hp' := Hp). destruct Hp' as (W & H & D & P & C & X & Y).
  unfold read. rewrite G. cbn [fst snd]. rewrite Z.eqb_refl. cbn [negb]. rewrite GH.
  unfold header_of. cbn [h_off h_width h_height h_bits h_comp h_xppm h_yppm].
  rewrite (s32_small (width b)), (s32_small (height b)) by lia.
  assert (KD : known_depth (depth b) = true).
  { clear - D. simpl in D. destruct D as [<-|[<-|[<-|[<-|[<-|[<-|[]]]]]]]; reflexivity. }
  rewrite KD. cbn [negb].
  assert (DP := depth_pos _ D).
  replace (width b <=? 0) with false by lia. replace (height b <=? 0) with false by lia. cbn [orb].
  replace (2 ^ 31 <=? width b * depth b) with false by lia.
  assert (TR := table_room_nonneg _ D).
  rewrite (s32_small (54 + table_room (depth b))) by lia. replace (54 + table_room (depth b) - 54) with (table_room (depth b)) by lia.
  unfold set_size, set_depth. rewrite KD. cbn [depth width height pixels colors xppm yppm].
  replace (width b <=? 0) with false by lia. replace (height b <=? 0) with false by lia. cbn [orb].
  cbn [depth width height pixels colors xppm yppm].
  destruct (depth b =? 16) eqn:E16.
  - (* depth 16 *)
    apply Z.eqb_eq in E16. cbn [Z.eqb Z.ltb Z.compare Pos.compare Pos.compare_cont orb andb].
    change (3 =? 1) with false. change (3 =? 2) with false. change (3 <? 3) with false.
    change (3 =? 3) with true. change (3 =? 0) with false. cbn [orb andb].
    rewrite E16. change (16 =? 16) with true. cbn [negb].
    change (16 <? 16) with false. cbn [andb].
    change (table_room 16 - 12) with 0. change (0 <? 0) with false. change (Z.to_nat 0) with 0%nat.
    rewrite skipn_O. cbn [flat_map app]. unfold pixels16.
    assert (GM : forall dflt m z s, 0 <= m < 2 ^ 16 -> get_mask dflt (le 2 m ++ le 2 z ++ s) = (m, s)).
    { intros dflt m z' s' M. unfold get_mask. rewrite get_le by (simpl Z.of_nat; change (256 ^ 2) with (2 ^ 16); exact M).
      rewrite skipn_app, le_length, Nat.sub_diag, skipn_O, skipn_all2 by (rewrite le_length; lia). reflexivity. }
    cbn [fst snd]. rewrite (GM 31744 63488) by lia. cbn [fst snd]. rewrite (GM 992 2016) by lia. cbn [fst snd].
    rewrite (GM 31 31) by lia. cbn [fst snd].
    destruct (read_rows16_blocks 63488 2016 31 b
                (fun j => map (pad j) (seq 0 (Z.to_nat (padding16 (width b))))) (Z.to_nat (height b))) with
      (t := @nil Z) (f := fun (_ _ : Z) => white) as (f' & R & V).
    { intros j. rewrite map_length, seq_length. reflexivity. }
    { lia. }
    { intros i j I J. destruct (word16_parts (pixels b i j)) as (E1 & E2 & E3 & E4); [|lia].
      apply P. unfold inside. lia. }
    rewrite app_nil_r in R. rewrite R.
    eexists. split; [reflexivity|]. cbn [depth width height colors].
    split; [reflexivity|]. split; [reflexivity|]. split; [reflexivity|]. split; [lia|].
    intros i j I. rewrite get_pixel_inside by exact I. cbn [pixels]. rewrite V.
    destruct I as [I J].
    replace ((0 <=? j) && (j <? Z.of_nat (Z.to_nat (height b))) && (0 <=? i) && (i <? width b)) with true by lia.
    destruct (channels (pixels b i j)) as (C1 & C2 & C3); [apply P; split; assumption|].
    unfold stored. split; [lia|]. split; [lia|]. split; [|lia]. intros _. cbn [pr pg pb].
    rewrite C1, C2, C3. auto.
  - apply Z.eqb_neq in E16. change (0 =? 1) with false. change (0 =? 2) with false.
    change (3 <? 0) with false. change (0 =? 3) with false. cbn [orb andb negb].
    destruct (depth b <? 16) eqn:E3.
    + (* a table *)
      apply Z.ltb_lt in E3. destruct (C E3) as [FC LC].
      assert (D3 : In (depth b) [1; 4; 8]) by (clear - D E3; simpl in *; lia).
      assert (LS := standard_length _ D3).
      assert (TR2 : table_room (depth b) = 4 * 2 ^ depth b) by (unfold table_room; replace (depth b <? 16) with true by lia; reflexivity).
      assert (NT : Z.quot (table_room (depth b)) 4 = 2 ^ depth b).
      { rewrite TR2, Z.quot_div_nonneg by lia. rewrite Z.mul_comm. apply Z.div_mul. lia. }
      unfold ncolors. rewrite NT. rewrite Z.ltb_irrefl.
      pose proof (Z.pow_pos_nonneg 2 (depth b) ltac:(lia) ltac:(lia)) as PP.
      replace (2 ^ depth b <? 0) with false by lia. cbn [andb].
      replace (Z.to_nat (2 ^ depth b)) with (length (colors b)) by lia.
      rewrite read_colors_bytes by lia. cbn [fst snd].
      rewrite firstn_all. replace (length (standard_table (depth b)) - length (colors b))%nat with 0%nat by lia.
      cbn [repeat]. rewrite app_nil_r.
      rewrite TR2. replace (4 * 2 ^ depth b - 4 * 2 ^ depth b) with 0 by lia.
      change (0 <? 0) with false. change (Z.to_nat 0) with 0%nat. rewrite skipn_O.
      eexists. split; [reflexivity|]. cbn [depth width height colors].
      split; [reflexivity|]. split; [reflexivity|]. split; [reflexivity|]. split; [reflexivity|].
      intros i j I. rewrite get_pixel_inside by exact I. cbn [pixels].
      rewrite <- (app_nil_r (flat_map _ (down _))).
      rewrite read_rows_blocks by (intros; apply block_length; assumption).
      destruct I as [I J].
      replace ((0 <=? j) && (j <? Z.of_nat (Z.to_nat (height b))) && (0 <=? i) && (i <? width b)) with true by lia.
      apply decode_row; try assumption. split; assumption.
    + (* depth 24, 32 *)
      apply Z.ltb_ge in E3. cbn [andb].
      assert (D3 : depth b = 24 \/ depth b = 32) by (clear - D E3 E16; simpl in *; lia).
      assert (TR2 : table_room (depth b) = 0) by (destruct D3 as [-> | ->]; reflexivity).
      rewrite TR2. change (0 <? 0) with false. change (Z.to_nat 0) with 0%nat. rewrite skipn_O.
      cbn [fst snd flat_map app].
      eexists. split; [reflexivity|]. cbn [depth width height colors].
      split; [reflexivity|]. split; [reflexivity|]. split; [reflexivity|]. split; [lia|].
      intros i j I. rewrite get_pixel_inside by exact I. cbn [pixels].
      rewrite <- (app_nil_r (flat_map _ (down _))).
      rewrite read_rows_blocks by (intros; apply block_length; assumption).
      destruct I as [I J].
      replace ((0 <=? j) && (j <? Z.of_nat (Z.to_nat (height b))) && (0 <=? i) && (i <? width b)) with true by lia.
      assert (ST := decode_row b j n i white Hp E16 (conj I J) RS).
      destruct D3 as [D3|D3]; rewrite D3 in *; exact ST.
Qed.
Print Assumptions C107_read_back.

(* a file that does not start with "BM" is refused, and the picture stays *)
Theorem C107_other_files b0 f : (2 <= length f)%nat -> Forall is_byte f ->
  ~ (byte_at f 0 = 66 /\ byte_at f 1 = 77) -> read b0 f = Some (false, b0).
Proof.
  intros L F N. destruct f as [|x [|y r]]; simpl in L; try lia.
  inversion F as [|? ? X F']; subst. inversion F' as [|? ? Y _]; subst.
  unfold byte_at in N. simpl in N. unfold is_byte in *.
  unfold read, get. cbn [length Nat.ltb Nat.leb firstn skipn le_val fold_right fst snd].
  replace (x + 256 * (y + 256 * 0) =? 19778) with false by lia. reflexivity.
Qed.
Print Assumptions C107_other_files.

(* ---- the layout *)
Lemma byte_at_app l1 l2 k : Z.of_nat (length l1) <= k -> byte_at (l1 ++ l2) k = byte_at l2 (k - Z.of_nat (length l1)).
Proof.
  intros K. unfold byte_at. rewrite app_nth2 by lia. f_equal. lia.
Qed.
Lemma byte_at_app1 l1 l2 k : 0 <= k < Z.of_nat (length l1) -> byte_at (l1 ++ l2) k = byte_at l1 k.
Proof. intros K. unfold byte_at. rewrite app_nth1 by lia. reflexivity. Qed.

Lemma dword_le v t l : 0 <= v < 2 ^ 32 -> l = le 4 v ++ t -> 
  dword_at l 0 = v.
Proof.
  intros V ->. assert (E := le_val_le 4 v ltac:(simpl Z.of_nat; change (256 ^ 4) with (2 ^ 32); exact V)).
  unfold dword_at, word_at, byte_at. cbn [le app] in *. cbn [le_val fold_right] in E.
  change (Z.to_nat 0) with 0%nat. change (Z.to_nat (0 + 1)) with 1%nat.
  change (Z.to_nat (0 + 2)) with 2%nat. change (Z.to_nat (0 + 2 + 1)) with 3%nat.
  cbn [nth]. lia.
Qed.

Lemma dword_at_skip p l k : 0 <= k -> Z.of_nat (length p) = k -> dword_at (p ++ l) k = dword_at l 0.
Proof.
  intros K E. unfold dword_at, word_at. rewrite !byte_at_app by lia. rewrite !E.
  replace (k - k) with 0 by lia. replace (k + 1 - k) with 1 by lia.
  replace (k + 2 - k) with 2 by lia. replace (k + 2 + 1 - k) with 3 by lia. reflexivity.
Qed.
Lemma word_at_skip p l k : 0 <= k -> Z.of_nat (length p) = k -> word_at (p ++ l) k = word_at l 0.
Proof. intros K E. unfold word_at. rewrite !byte_at_app by lia. rewrite !E.
  replace (k - k) with 0 by lia. replace (k + 1 - k) with 1 by lia. reflexivity. Qed.

Lemma word_le v t : 0 <= v < 65536 -> word_at (le 2 v ++ t) 0 = v.
Proof.
  intros V. assert (E := le_val_le 2 v ltac:(simpl Z.of_nat; change (256 ^ 2) with 65536; exact V)).
  unfold word_at, byte_at. cbn [le app] in *. cbn [le_val fold_right] in E.
  change (Z.to_nat 0) with 0%nat. change (Z.to_nat (0 + 1)) with 1%nat. cbn [nth]. lia.
Qed.

Lemma dword_le' v t : 0 <= v < 2 ^ 32 -> dword_at (le 4 v ++ t) 0 = v.
Proof. intros V. exact (dword_le v t _ V eq_refl). Qed.

Lemma nth_zeros n k : (k < n)%nat -> nth k (repeat 0 n) (-1) = 0.
Proof. revert k; induction n as [|n IH]; intros [|k] K; simpl; try lia; apply IH; lia. Qed.

Lemma app_cut {A} (a b c : list A) : a ++ b ++ c = (a ++ b) ++ c.
Proof. apply app_assoc. Qed.

Lemma down_nth n k : (k < n)%nat -> nth k (down n) (-1) = Z.of_nat (n - 1 - k).
Proof.
  revert k; induction n as [|n IH]; intros k K; [lia|].
  destruct k as [|k]; simpl; [f_equal; lia|]. rewrite IH by lia. f_equal. lia.
Qed.

Lemma byte_at_blocks (g : Z -> list Z) h n j k t :
  (forall x, length (g x) = Z.to_nat n) -> 0 <= n -> 0 <= j < h -> 0 <= k < n ->
  byte_at (flat_map g (down (Z.to_nat h)) ++ t) ((h - 1 - j) * n + k) = byte_at (g j) k.
Proof.
  intros G N J K. unfold byte_at.
  assert (LF : length (flat_map g (down (Z.to_nat h))) = (Z.to_nat n * Z.to_nat h)%nat).
  { rewrite (flat_map_const_length g (Z.to_nat n)) by auto. rewrite down_length. reflexivity. }
  replace (Z.to_nat ((h - 1 - j) * n + k)) with (Z.to_nat n * Z.to_nat (h - 1 - j) + Z.to_nat k)%nat by nia.
  rewrite (nth_indep _ (-1) 0) by (rewrite app_length, LF; nia).
  rewrite (nth_flat_map_const g (Z.to_nat n) _ (-1)) by (rewrite ?down_length; auto; lia).
  rewrite down_nth by lia. rewrite (nth_indep _ (-1) 0) by (rewrite G; lia).
  f_equal. f_equal. lia.
Qed.

(* C106: a picture file has the layout that the format prescribes. *)
Theorem C106_layout z pad b f : picture b -> write z pad b = Some f ->
  exists n, row_size (depth b) (width b) n /\
  let table := if depth b <? 16 then 4 * 2 ^ depth b else if depth b =? 16 then 12 else 0 in
  Z.of_nat (length f) = 54 + table + n * height b /\
  byte_at f 0 = 66 /\ byte_at f 1 = 77 /\
  dword_at f 2 = Z.of_nat (length f) /\ dword_at f 10 = 54 + table /\
  dword_at f 14 = 40 /\ dword_at f 18 = width b /\ dword_at f 22 = height b /\
  word_at f 26 = 1 /\ word_at f 28 = depth b /\
  dword_at f 30 = (if depth b =? 16 then 3 else 0) /\ dword_at f 34 = n * height b /\
  (depth b < 16 -> forall k, 0 <= k < 2 ^ depth b ->
     let c := nth (Z.to_nat k) (colors b) white in
     byte_at f (54 + 4 * k) = pb c /\ byte_at f (54 + 4 * k + 1) = pg c /\
     byte_at f (54 + 4 * k + 2) = pr c) /\
  (depth b = 24 -> forall i j, inside b i j ->
     let o := 54 + (height b - 1 - j) * n + 3 * i in
     byte_at f o = pb (pixels b i j) /\ byte_at f (o + 1) = pg (pixels b i j) /\
     byte_at f (o + 2) = pr (pixels b i j)) /\
  (depth b = 24 -> forall k j, 0 <= j < height b -> 3 * width b <= k < n ->
     byte_at f (54 + (height b - 1 - j) * n + k) = 0).
Proof.
  intros Hp E. destruct (write_some z pad b f Hp E) as (RS & N0 & WD & T & F).
  set (n := buffer_size (depth b) (width b)) in *.
  exists n. split; [exact RS|].
  change (if depth b <? 16 then 4 * 2 ^ depth b else if depth b =? 16 then 12 else 0)
    with (table_room (depth b)). cbv zeta.
  assert (Hp' := Hp). destruct Hp' as (W & H & D & P & C & X & Y).
  assert (DP := depth_pos _ D). assert (TR := table_room_nonneg _ D).
  set (rest := flat_map px_bytes (if depth b <? 16 then colors b else []) ++
      (if depth b =? 16 then pixels16 b z pad
       else flat_map (fun j => padded n (row_bytes (depth b) (colors b) (row b j)))
                     (down (Z.to_nat (height b))))) in *.
  assert (LTab : Z.of_nat (length (flat_map px_bytes (if depth b <? 16 then colors b else []))) =
                 if depth b <? 16 then 4 * 2 ^ depth b else 0).
  { rewrite (flat_map_const_length _ 4) by reflexivity. destruct (depth b <? 16) eqn:E1; [|reflexivity].
    destruct (C ltac:(lia)) as [_ L]. lia. }
  assert (LRest : Z.of_nat (length rest) = table_room (depth b) + n * height b).
  { unfold rest. rewrite app_length, Nat2Z.inj_add, LTab. unfold table_room.
    destruct (depth b =? 16) eqn:E16.
    - replace (depth b <? 16) with false by lia. unfold pixels16.
      rewrite !app_length, !le_length.
      assert (PD : 2 * width b + padding16 (width b) = n).
      { apply (row_size_unique (depth b) (width b)); [|exact RS]. apply Z.eqb_eq in E16. rewrite E16.
        unfold row_size, padding16. pose proof (Z.div_mod (width b * 2) 4 ltac:(lia)) as D1.
        pose proof (Z.mod_pos_bound (width b * 2) 4 ltac:(lia)) as B1.
        set (m := (width b * 2) mod 4) in *.
        assert (M : (4 - m) mod 4 = if m =? 0 then 0 else 4 - m).
        { destruct (m =? 0) eqn:Em; [apply Z.eqb_eq in Em; rewrite Em; reflexivity|apply Z.mod_small; lia]. }
        rewrite M. clearbody m. destruct (m =? 0) eqn:Em.
        - split; [replace (2 * width b + 0) with (width b * 2 / 4 * 4) by lia; apply Z_mod_mult|].
          split; [lia|]. intros q Q1 Q2. lia.
        - split; [replace (2 * width b + (4 - m)) with ((width b * 2 / 4 + 1) * 4) by lia; apply Z_mod_mult|].
          split; [lia|]. intros q Q1 Q2. pose proof (Z.div_mod q 4 ltac:(lia)). lia. }
      assert (PN : 0 <= padding16 (width b)) by (unfold padding16; apply Z.mod_pos_bound; lia).
      rewrite (flat_map_const_length _ (Z.to_nat n)), down_length.
      + nia.
      + intros j _. rewrite app_length, (flat_map_const_length _ 2) by reflexivity.
        rewrite row_length, map_length, seq_length. lia.
    - rewrite (flat_map_const_length _ (Z.to_nat n)), down_length.
      + destruct (depth b <? 16); nia.
      + intros j _. apply block_length; try assumption. lia. }
  assert (LF : Z.of_nat (length f) = 54 + table_room (depth b) + n * height b).
  { rewrite F, app_length, headers_length, Nat2Z.inj_add, LRest. lia. }
  split; [exact LF|].
  assert (NH : 0 <= n * height b) by nia.
  rewrite LF, F.
  assert (HB : headers b ++ rest =
    le 2 19778 ++ le 4 (54 + table_room (depth b) + n * height b) ++ le 2 0 ++ le 2 0
    ++ le 4 (54 + table_room (depth b)) ++ le 4 40 ++ le 4 (width b) ++ le 4 (height b) ++ le 2 1
    ++ le 2 (depth b) ++ le 4 (if depth b =? 16 then 3 else 0) ++ le 4 (n * height b)
    ++ le 4 (if xppm b =? 0 then 3780 else xppm b) ++ le 4 (if yppm b =? 0 then 3780 else yppm b)
    ++ le 4 0 ++ le 4 0 ++ rest).
  { unfold headers, total_size. rewrite (table_size_room _ D).
    assert (WD0 : 0 <= width b * depth b) by nia.
    rewrite <- (sizes_agree _ _ WD0). fold n. rewrite (Z.mul_comm (height b) n).
    rewrite <- !app_assoc. reflexivity. }
  assert (SK : forall p l k, Z.of_nat (length p) = k -> dword_at (p ++ l) k = dword_at l 0)
    by (intros; apply dword_at_skip; lia).
  split; [rewrite HB; reflexivity|]. split; [rewrite HB; reflexivity|].
  split; [rewrite HB, SK by reflexivity; apply dword_le'; lia|].
  split. { rewrite HB. rewrite app_cut, app_cut, app_cut, SK by reflexivity. apply dword_le'; lia. }
  split. { rewrite HB. rewrite app_cut, app_cut, app_cut, app_cut, SK by reflexivity. apply dword_le'; lia. }
  split. { rewrite HB. do 5 rewrite app_cut. rewrite SK by reflexivity. apply dword_le'; lia. }
  split. { rewrite HB. do 6 rewrite app_cut. rewrite SK by reflexivity. apply dword_le'; lia. }
  split. { rewrite HB. do 7 rewrite app_cut. rewrite word_at_skip by (try reflexivity; lia). apply word_le; lia. }
  split. { rewrite HB. do 8 rewrite app_cut. rewrite word_at_skip by (try reflexivity; lia). apply word_le; lia. }
  split. { rewrite HB. do 9 rewrite app_cut. rewrite SK by reflexivity. apply dword_le'. destruct (depth b =? 16); lia. }
  split. { rewrite HB. do 10 rewrite app_cut. rewrite SK by reflexivity. apply dword_le'. lia. }
  clear HB.
  assert (BA : forall k, 0 <= k -> byte_at (headers b ++ rest) (54 + k) = byte_at rest k).
  { intros k K. rewrite byte_at_app by (rewrite headers_length; lia). rewrite headers_length. f_equal. lia. }
  split.
  - intros D16 k K. replace (depth b <? 16) with true in * by lia.
    destruct (C D16) as [_ LC].
    assert (Q : forall r, (r < 3)%nat -> byte_at rest (4 * k + Z.of_nat r) =
                nth r (px_bytes (nth (Z.to_nat k) (colors b) white)) 0).
    { intros r R. unfold rest. replace (depth b <? 16) with true by lia.
      rewrite byte_at_app1 by (clear - LTab K R; lia). unfold byte_at.
      replace (Z.to_nat (4 * k + Z.of_nat r)) with (4 * Z.to_nat k + r)%nat by lia.
      rewrite <- (app_nil_r (flat_map px_bytes (colors b))).
      rewrite (nth_indep _ (-1) 0) by (rewrite app_nil_r; lia).
      rewrite (nth_flat_map_const px_bytes 4 _ white) by (auto; try reflexivity; lia). reflexivity. }
    rewrite <- !Z.add_assoc. rewrite !BA by lia.
    assert (Q0 := Q 0%nat ltac:(lia)). assert (Q1 := Q 1%nat ltac:(lia)). assert (Q2 := Q 2%nat ltac:(lia)).
    change (Z.of_nat 0) with 0 in Q0. rewrite Z.add_0_r in Q0.
    change (Z.of_nat 1) with 1 in Q1. change (Z.of_nat 2) with 2 in Q2.
    rewrite Q0, Q1, Q2. auto.
  - assert (D24 : depth b = 24 -> 3 * width b <= n).
    { intros D24. destruct RS as (_ & RS & _). rewrite D24 in RS. lia. }
    assert (Blk : depth b = 24 -> forall k j, 0 <= j < height b -> 0 <= k < n ->
       byte_at (headers b ++ rest) (54 + (height b - 1 - j) * n + k) =
       byte_at (padded n (flat_map (fun p => [pb p; pg p; pr p]) (row b j))) k).
    { intros E24 k j J K. rewrite <- Z.add_assoc. rewrite BA by nia. unfold rest.
      replace (depth b <? 16) with false by lia. replace (depth b =? 16) with false by lia.
      cbn [flat_map app]. rewrite <- (app_nil_r (flat_map _ (down _))).
      rewrite byte_at_blocks by (try lia; intros x; apply block_length; try assumption; lia).
      unfold row_bytes. rewrite E24. reflexivity. }
    split.
    + intros E24 i j [I J]. specialize (D24 E24).
      assert (Q : forall r, (r < 3)%nat ->
        byte_at (headers b ++ rest) (54 + (height b - 1 - j) * n + (3 * i + Z.of_nat r)) =
        nth r [pb (pixels b i j); pg (pixels b i j); pr (pixels b i j)] 0).
      { intros r R. rewrite (Blk E24) by lia. unfold padded.
        assert (LR : (Z.to_nat i < length (row b j))%nat) by (rewrite row_length; lia).
        rewrite byte_at_app1 by (rewrite (flat_map_const_length _ 3) by reflexivity; rewrite row_length; lia).
        unfold byte_at. replace (Z.to_nat (3 * i + Z.of_nat r)) with (3 * Z.to_nat i + r)%nat by lia.
        rewrite <- (app_nil_r (flat_map _ (row b j))).
        rewrite (nth_indep _ (-1) 0) by (rewrite app_nil_r, (flat_map_const_length _ 3) by reflexivity; lia).
        rewrite (nth_flat_map_const _ 3 _ white) by (auto; try reflexivity).
        rewrite row_nth by lia. reflexivity. }
      assert (Q0 := Q 0%nat ltac:(lia)). assert (Q1 := Q 1%nat ltac:(lia)). assert (Q2 := Q 2%nat ltac:(lia)).
      change (Z.of_nat 0) with 0 in Q0. rewrite Z.add_0_r in Q0.
      change (Z.of_nat 1) with 1 in Q1. change (Z.of_nat 2) with 2 in Q2.
      rewrite Z.add_assoc in Q1, Q2. rewrite Q0, Q1, Q2. auto.
    + intros E24 k j J K. rewrite (Blk E24) by lia. unfold padded.
      rewrite byte_at_app by (rewrite (flat_map_const_length _ 3) by reflexivity; rewrite row_length; lia).
      rewrite (flat_map_const_length _ 3) by reflexivity. rewrite row_length.
      unfold byte_at. apply nth_zeros. lia.
Qed.
Print Assumptions C106_layout.

(* WriteToFile is defined unless the numbers of the format are too small. *)
Theorem C106_defined_partial z pad b n : picture b -> row_size (depth b) (width b) n ->
  let table := if depth b <? 16 then 4 * 2 ^ depth b else if depth b =? 16 then 12 else 0 in
  (exists f, write z pad b = Some f) <->
  (width b * depth b < 2 ^ 31 /\ 54 + table + n * height b < 2 ^ 32).
Proof.
  intros Hp RS. change (if depth b <? 16 then 4 * 2 ^ depth b else if depth b =? 16 then 12 else 0)
    with (table_room (depth b)). cbv zeta.
  assert (Hp' := Hp). destruct Hp' as (W & H & D & _).
  assert (DP := depth_pos _ D). assert (WD : 0 <= width b * depth b) by nia.
  assert (EN := row_size_unique _ _ _ _ RS (buffer_size_spec _ _ WD)). subst n.
  split.
  - intros [f E]. destruct (write_some z pad b f Hp E) as (_ & _ & A & B & _). split; [exact A|].
    rewrite (Z.mul_comm _ (height b)). exact B.
  - intros [A B]. unfold write, total_size.
    rewrite (table_size_room _ D), <- (sizes_agree _ _ WD).
    replace (2 ^ 31 <=? width b * depth b) with false by lia.
    replace (2 ^ 32 <=? 14 + 40 + table_room (depth b) + height b * buffer_size (depth b) (width b))
      with false by lia.
    cbn [orb]. eexists. reflexivity.
Qed.
Print Assumptions C106_defined_partial.

(* a picture too large for the format is not refused *)
Theorem C106_too_large_refuted : exists b, picture b /\ forall z pad, write z pad b = None.
Proof.
  exists (mkBmp 24 40000 40000 (fun _ _ => white) [] 0 0). split.
  - unfold picture, inside, is_colour, is_byte. cbn [depth width height pixels colors xppm yppm white pr pg pb pa].
    repeat split; intros; try lia. simpl; auto 10.
  - intros. reflexivity.
Qed.
Print Assumptions C106_too_large_refuted.

(* ---- a picture of three by two pixels *)
Definition small : bmp :=
  mkBmp 24 3 2 (fun i j => mkPx (10 * i) (100 * j) (200 + i + j) 0) [] 0 0.
Lemma small_picture : picture small.
Proof.
  unfold small, picture, inside, is_colour, is_byte.
  cbn [depth width height pixels colors xppm yppm pr pg pb pa].
  repeat split; intros; try lia. simpl; auto 10.
Qed.

Example C106_case : exists f, write 0 (fun _ _ => 0) small = Some f /\ length f = 78%nat /\
  row_size 24 3 12 /\ byte_at f (54 + 12 + 3) = 10 /\ byte_at f (54 + 0 + 4) = 100.
Proof.
  eexists. split; [reflexivity|]. split; [reflexivity|]. split.
  - split; [reflexivity|]. split; [lia|]. intros m M L. pose proof (Z.div_mod m 4 ltac:(lia)). lia.
  - split; reflexivity.
Qed.

Example C107_case :
  (exists b', match write 0 (fun _ _ => 0) small with Some f => read new_bmp f | None => None end = Some (true, b')
     /\ get_pixel b' 1 1 = mkPx 10 100 202 0) /\
  let b8 := mkBmp 1 2 1 (fun i _ => if i =? 0 then mkPx 10 20 30 0 else mkPx 200 210 220 0) std1 0 0 in
  picture b8 /\
  exists b', match write 0 (fun _ _ => 0) b8 with Some f => read new_bmp f | None => None end = Some (true, b')
     /\ get_pixel b' 0 0 = mkPx 0 0 0 0 /\ get_pixel b' 1 0 = mkPx 255 255 255 0.
Proof.
  split; [eexists; split; reflexivity|]. split.
  - unfold picture, inside, is_colour, is_byte; simpl. repeat split; try lia; auto 10;
      try (destruct (i =? 0); simpl; lia).
    repeat constructor; simpl; unfold is_byte; lia.
  - eexists. split; [reflexivity|]. split; reflexivity.
Qed.

(* A file that ends early is read without an error: rows are missing. *)
Theorem C107_truncated_refuted : exists z pad b f b',
  picture b /\ write z pad b = Some f /\ read new_bmp (firstn (length f - 1) f) = Some (true, b') /\
  exists i j, inside b i j /\ pr (get_pixel b' i j) <> pr (pixels b i j).
Proof.
  exists 0, (fun _ _ => 0), small.
  eexists. eexists. split; [exact small_picture|]. split; [reflexivity|].
  split; [vm_compute; reflexivity|].
  exists 0, 0. split; [unfold inside; simpl; lia|]. vm_compute. discriminate.
Qed.
Print Assumptions C107_truncated_refuted.

(* A file of depth 1 whose pixels are said to start at byte 50 makes
   ReadFromFile write outside of the table. *)
Theorem C107_offset_refuted : exists f, Forall is_byte f /\ (54 <= length f)%nat /\ read new_bmp f = None.
Proof.
  exists (le 2 19778 ++ le 4 100 ++ le 4 0 ++ le 4 50 ++ le 4 40 ++ le 4 2 ++ le 4 1 ++ le 2 1 ++ le 2 1
          ++ repeat 0 40).
  split; [|split; [simpl; lia|vm_compute; reflexivity]].
  vm_compute. repeat constructor; discriminate.
Qed.
Print Assumptions C107_offset_refuted.

(* ---- pictures as a program makes them: a depth, a size, pixels set *)
Lemma standard_table_ok d : In d [1;4;8] ->
  Forall is_colour (standard_table d) /\ Z.of_nat (length (standard_table d)) = 2 ^ d.
Proof.
  intros [<-|[<-|[<-|[]]]].
  - split; [|reflexivity]. let t := eval vm_compute in (standard_table 1) in change (standard_table 1) with t.
    repeat (apply Forall_cons; [unfold is_colour, is_byte; simpl; lia|]). constructor.
  - split; [|reflexivity]. let t := eval vm_compute in (standard_table 4) in change (standard_table 4) with t.
    repeat (apply Forall_cons; [unfold is_colour, is_byte; simpl; lia|]). constructor.
  - assert (T : forallb (fun p => (0 <=? pr p) && (pr p <? 256) && (0 <=? pg p) && (pg p <? 256) &&
        (0 <=? pb p) && (pb p <? 256) && (0 <=? pa p) && (pa p <? 256)) (standard_table 8) = true)
      by (vm_compute; reflexivity).
    split; [|vm_compute; reflexivity]. apply Forall_forall. intros p Hin.
    rewrite forallb_forall in T. specialize (T p Hin). cbv beta in T.
    unfold is_colour, is_byte. lia.
Qed.

(* the pixels set, in order *)
Definition set_all (b : bmp) (l : list (Z * Z * px)) : bmp :=
  fold_left (fun b q => set_pixel b (fst (fst q)) (snd (fst q)) (snd q)) l b.

(* the last colour that was set for a pixel, white if none *)
Fixpoint last_set (i j : Z) (l : list (Z * Z * px)) (before : px) : px :=
  match l with
  | [] => before
  | (i', j', p) :: r => last_set i j r (if (i' =? i) && (j' =? j) then p else before)
  end.

Lemma set_all_ok l : forall b,
  depth (set_all b l) = depth b /\ width (set_all b l) = width b /\ height (set_all b l) = height b /\
  colors (set_all b l) = colors b /\ xppm (set_all b l) = xppm b /\ yppm (set_all b l) = yppm b /\
  forall i j, pixels (set_all b l) i j = last_set i j l (pixels b i j).
Proof.
  induction l as [|[[i' j'] p] l IH]; intros b; [repeat split; reflexivity|].
  unfold set_all in *. cbn [fold_left fst snd].
  destruct (IH (set_pixel b i' j' p)) as (A1 & A2 & A3 & A4 & A5 & A6 & A7).
  rewrite A1, A2, A3, A4, A5, A6. repeat (split; [reflexivity|]).
  intros i j. rewrite A7. cbn [last_set set_pixel pixels].
  rewrite (Z.eqb_sym i i'), (Z.eqb_sym j j'). reflexivity.
Qed.

Lemma last_set_colour i j l : forall before, is_colour before ->
  Forall (fun q => is_colour (snd q)) l -> is_colour (last_set i j l before).
Proof.
  induction l as [|[[i' j'] p] l IH]; intros before B F; [exact B|].
  inversion F; subst. cbn [last_set]. apply IH; [|assumption].
  destruct ((i' =? i) && (j' =? j)); assumption.
Qed.

Theorem C107_made d w h l : In d [1; 4; 8; 16; 24; 32] -> 0 < w < 2 ^ 31 -> 0 < h < 2 ^ 31 ->
  Forall (fun q => is_colour (snd q)) l ->
  let b := set_all (set_size (set_depth new_bmp d) w h) l in
  picture b /\ depth b = d /\ width b = w /\ height b = h /\
  forall i j, inside b i j -> get_pixel b i j = last_set i j l (mkPx 255 255 255 0).
Proof.
  intros D W H F b.
  destruct (set_all_ok l (set_size (set_depth new_bmp d) w h)) as (A1 & A2 & A3 & A4 & A5 & A6 & A7).
  fold b in A1, A2, A3, A4, A5, A6, A7.
  assert (K : known_depth d = true) by (unfold known_depth; simpl in D; lia).
  assert (E : set_size (set_depth new_bmp d) w h = mkBmp d w h (fun _ _ => white) (standard_table d) 0 0).
  { unfold set_size, set_depth. rewrite K.
    replace ((w <=? 0) || (h <=? 0)) with false by lia. reflexivity. }
  rewrite E in A1, A2, A3, A4, A5, A6, A7. cbn [depth width height colors xppm yppm pixels] in *.
  assert (GP : forall i j, inside b i j -> get_pixel b i j = last_set i j l (mkPx 255 255 255 0)).
  { intros i j I. rewrite get_pixel_inside by exact I. rewrite A7. reflexivity. }
  split; [|split; [exact A1|split; [exact A2|split; [exact A3|exact GP]]]].
  unfold picture. rewrite A1, A2, A3, A4, A5, A6.
  split; [exact W|]. split; [exact H|]. split; [exact D|]. split.
  - intros i j I. rewrite A7. apply last_set_colour; [|exact F]. unfold white, is_colour, is_byte; simpl; lia.
  - split; [|lia]. intros L. apply standard_table_ok. simpl in *. lia.
Qed.
Print Assumptions C107_made.

(* outside of the picture: the nearest pixel *)
Theorem C107_clamped b i j : picture b -> exists i' j', inside b i' j' /\ get_pixel b i j = pixels b i' j' /\
  (forall k, 0 <= k < width b -> Z.abs (i - i') <= Z.abs (i - k)) /\
  (forall k, 0 <= k < height b -> Z.abs (j - j') <= Z.abs (j - k)).
Proof.
  intros (W & H & _). exists (Z.max 0 (Z.min i (width b - 1))), (Z.max 0 (Z.min j (height b - 1))).
  split; [unfold inside; lia|]. split; [|split; intros; lia].
  unfold get_pixel. f_equal.
  - destruct (width b <=? i) eqn:E1; destruct (_ <? 0) eqn:E2; lia.
  - destruct (height b <=? j) eqn:E1; destruct (_ <? 0) eqn:E2; lia.
Qed.
Print Assumptions C107_clamped.

Example C107_made_case :
  let b := set_all (set_size (set_depth new_bmp 8) 4 3) [((1, 2), mkPx 1 2 3 0); ((1, 2), mkPx 9 8 7 0)] in
  get_pixel b 1 2 = mkPx 9 8 7 0 /\ get_pixel b 0 0 = mkPx 255 255 255 0 /\ get_pixel b 1 99 = mkPx 9 8 7 0.
Proof. repeat split. Qed.
