(* Proofs about the ghost update buffers. *)
From Coq Require Import String.
From Verif Require Import Lib Model_Geometry Model_Store Model_Buffer Spec_Store Spec_Buffer Proofs_Geometry Proofs_Store1
  Proofs_Buffer.
From Coq Require Import ZifyBool ZifyNat.
Local Open Scope list_scope.

Lemma relative_length b : forall x c, length x = length b -> length c = length b ->
  length (relative_position b x c) = length b.
Proof.
  induction b as [|a b IH]; intros [|xd x] [|cd c] H1 H2; cbn in *; try lia. rewrite IH; lia.
Qed.

Lemma relative_nth b : forall x c d a xd cd, nth_error b d = Some a -> nth_error x d = Some xd -> nth_error c d = Some cd ->
  nth_error (relative_position b x c) d = Some (option_map (fun q => cd + min_image1 a (q - cd))%Q xd).
Proof.
  induction b as [|a0 b IH]; intros x c [|d] a xd cd H1 H2 H3; try discriminate; destruct x, c; try discriminate; cbn in *.
  - injection H1 as <-. injection H2 as <-. injection H3 as <-. reflexivity.
  - now apply IH.
Qed.

(* The words sent for one ghost. *)
Definition genc (b : box) (l : ghost_layout) (c : list Q) (p : part) (o : num) : list word :=
  map WR (relative_position b (p_x p) c) ++ (if send_v l then map WR (p_v p) else []) ++ (if send_om l then [WR o] else []).

Definition om_of (l : ghost_layout) (p : part) : num := match get_om l p with Some o => o | None => None end.
Definition om_ok (l : ghost_layout) (p : part) : Prop := send_om l = true -> get_om l p <> None.

Lemma genc_len b l c p o dims : length b = dims -> length c = dims -> length (p_x p) = dims -> length (p_v p) = dims ->
  length (genc b l c p o) = ghost_width l dims.
Proof.
  intros Hb Hc Hx Hv. unfold genc, ghost_width. rewrite !app_length, map_length, relative_length by congruence.
  destruct (send_v l), (send_om l); rewrite ?map_length; cbn; lia.
Qed.

Lemma write_at_nil pos buf : (pos <= length buf)%nat -> write_at pos [] buf = Some buf.
Proof.
  intros H. unfold write_at. cbn [length]. destruct (Nat.leb_spec (pos + 0) (length buf)); [|lia]. rewrite Nat.add_0_r. cbn.
  now rewrite firstn_skipn.
Qed.

Lemma pack_ghost_one_write b l dims j c p buf : length b = dims -> length c = dims -> length (p_x p) = dims ->
  length (p_v p) = dims -> (dims <= 4)%nat -> om_ok l p -> (ghost_width l dims * j + ghost_width l dims <= length buf)%nat ->
  pack_ghost_one b l dims j c p buf = write_at (ghost_width l dims * j) (genc b l c p (om_of l p)) buf.
Proof.
  intros Hb Hc Hx Hv Hd Ho Hl. unfold pack_ghost_one. destruct (Nat.ltb_spec 4 dims); [lia|].
  set (w := ghost_width l dims) in *.
  assert (Hw : w = (dims + (if send_v l then dims else 0) + (if send_om l then 1 else 0))%nat) by reflexivity.
  unfold genc. rewrite write_at_app. rewrite map_length, relative_length by congruence. rewrite Hb.
  destruct (write_at (w * j) (map WR (relative_position b (p_x p) c)) buf) as [b1|] eqn:E1; [|reflexivity].
  apply write_at_inv in E1 as (_ & _ & L1).
  rewrite write_at_app.
  assert (E2 : (if send_v l then write_at (w * j + dims) (map WR (p_v p)) b1 else Some b1) =
               write_at (w * j + dims) (if send_v l then map WR (p_v p) else []) b1).
  { destruct (send_v l); [reflexivity|]. rewrite write_at_nil; [reflexivity|]. lia. }
  rewrite E2. destruct (write_at (w * j + dims) (if send_v l then map WR (p_v p) else []) b1) as [b2|] eqn:E3; [|reflexivity].
  apply write_at_inv in E3 as (_ & _ & L2).
  assert (Hlen : length (if send_v l then map WR (p_v p) else []) = if send_v l then dims else 0%nat)
    by (destruct (send_v l); rewrite ?map_length; auto).
  rewrite Hlen. destruct (send_om l) eqn:Em.
  - unfold om_ok in Ho. specialize (Ho Em). unfold om_of. destruct (get_om l p); [|congruence].
    f_equal. lia.
  - rewrite write_at_nil; [reflexivity|]. lia.
Qed.

Definition gok (s : store) (l : ghost_layout) (p : part) : Prop :=
  length (p_x p) = st_dims s /\ length (p_v p) = st_dims s /\ om_ok l p.

Lemma pack_ghost_loop_spec b l c s ids : length b = st_dims s -> length c = st_dims s -> (st_dims s <= 4)%nat ->
  forall ps j buf, records s ids ps -> Forall (gok s l) ps ->
  ((j + length ids) * ghost_width l (st_dims s) <= length buf)%nat ->
  exists buf', pack_ghost_loop b l c j ids buf s = Some buf' /\ length buf' = length buf /\
    (forall i p, nth_error ps i = Some p -> block (ghost_width l (st_dims s)) (j + i) buf' = genc b l c p (om_of l p)) /\
    (forall i, (i < j)%nat -> block (ghost_width l (st_dims s)) i buf' = block (ghost_width l (st_dims s)) i buf).
Proof.
  intros Hb Hc Hd. set (w := ghost_width l (st_dims s)). induction ids as [|id ids IH]; intros ps j buf Hr Hg Hl; cbn [pack_ghost_loop].
  - inversion Hr; subst. exists buf. split; [reflexivity|]. split; [reflexivity|]. split; [intros [|i] p E; discriminate|reflexivity].
  - inversion Hr as [|? p ? ps' [Hp1 Hp2] Hr' e1 e2]; subst. inversion Hg as [|? ? (G1 & G2 & G3) Hg']; subst. cbn [length] in Hl.
    rewrite Hp2. rewrite pack_ghost_one_write by (auto; fold w; nia). fold w.
    assert (Hlen : length (genc b l c p (om_of l p)) = w) by (apply genc_len; auto).
    destruct (write_at_some (w * j) (genc b l c p (om_of l p)) buf) as [b1 E1]; [rewrite Hlen; nia|]. rewrite E1.
    pose proof (fun j' => write_at_block w j j' _ buf b1 Hlen E1) as Hblk.
    apply write_at_inv in E1 as (_ & _ & L1).
    destruct (IH ps' (S j) b1 Hr' Hg') as (b' & E & L & B1 & B2); [rewrite L1; nia|].
    exists b'. split; [exact E|]. split; [congruence|]. split.
    + intros [|i] q Eq; cbn in Eq.
      * injection Eq as <-. rewrite Nat.add_0_r, B2 by lia. rewrite Hblk, Nat.eqb_refl. reflexivity.
      * replace (j + S i)%nat with (S j + i)%nat by lia. now apply B1.
    + intros i Hi. rewrite B2 by lia. rewrite Hblk. destruct (Nat.eqb_spec i j); [lia|reflexivity].
Qed.

(* ---- receiving *)
Lemma set_nth_len {A} i (a : A) l : length (set_nth i a l) = length l.
Proof. revert i. induction l; intros [|i]; cbn; auto. Qed.
Lemma set_nth_nth {A} i (a : A) l k : (i < length l)%nat -> nth_error (set_nth i a l) k = if (k =? i)%nat then Some a else nth_error l k.
Proof. revert i k. induction l; intros [|i] [|k] H; cbn in *; try lia; auto. apply IHl. lia. Qed.

(* What a ghost record g becomes when the data of p arrives. *)
Definition received (b : box) (l : ghost_layout) (c : list Q) (p g g' : part) : Prop :=
  p_x g' = relative_position b (p_x p) c /\ p_v g' = (if send_v l then p_v p else p_v g) /\
  scals g' = (if send_om l then match om_entry l with Some i => set_nth i (om_of l p) (scals g) | None => scals g end else scals g) /\
  p_f g' = p_f g /\ p_evecs g' = p_evecs g /\ ints g' = ints g.

Lemma map_WR_real l : map as_real (map WR l) = l.
Proof. rewrite map_map. cbn. now rewrite map_id. Qed.

Lemma unpack_ghost_one_spec b l c dims j id p g buf m :
  length b = dims -> length c = dims -> length (p_x p) = dims -> length (p_v p) = dims -> om_ok l p -> 
  nth_error m id = Some g -> block (ghost_width l dims) j buf = genc b l c p (om_of l p) -> (send_om l = true -> om_ok l g) ->
  exists g' m', unpack_ghost_one l dims j id buf m = Some m' /\ received b l c p g g' /\
    length m' = length m /\ forall k, nth_error m' k = if (k =? id)%nat then Some g' else nth_error m k.
Proof.
  intros Hb Hc Hx Hv Ho Hg Hblk Hog. unfold unpack_ghost_one. rewrite Hg.
  set (w := ghost_width l dims) in *.
  assert (Hw : w = (dims + (if send_v l then dims else 0) + (if send_om l then 1 else 0))%nat) by reflexivity.
  assert (Hlen : length (genc b l c p (om_of l p)) = w) by (apply genc_len; auto).
  assert (Hrl : length (map WR (relative_position b (p_x p) c)) = dims) by (rewrite map_length, relative_length; congruence).
  assert (E0 : read_at (w * j) dims buf = Some (map WR (relative_position b (p_x p) c))).
  { pose proof (read_at_block w j 0 dims buf _ Hblk Hlen ltac:(lia)) as E0. rewrite Nat.add_0_r in E0. rewrite E0.
    cbn [skipn]. unfold genc. rewrite firstn_app_exact by exact Hrl. reflexivity. }
  rewrite E0, map_WR_real.
  set (x' := relative_position b (p_x p) c) in *.
  assert (E2 : (if send_v l then match read_at (w * j + dims) dims buf with Some vs => Some (set_v (map as_real vs) (set_x x' g)) | None => None end
                else Some (set_x x' g)) = Some (set_v (if send_v l then p_v p else p_v g) (set_x x' g))).
  { destruct (send_v l) eqn:Ev; [|destruct g; reflexivity].
    rewrite (read_at_block w j dims dims buf _ Hblk Hlen) by lia.
    unfold genc. rewrite Ev. fold x'. rewrite skipn_app_exact by exact Hrl.
    rewrite firstn_app_exact by (rewrite map_length; exact Hv). now rewrite map_WR_real. }
  rewrite E2.
  set (g2 := set_v (if send_v l then p_v p else p_v g) (set_x x' g)).
  assert (E3 : exists g', (if send_om l then match read_at (w * j + (dims + (if send_v l then dims else 0))) 1 buf with
                                   | Some [o] => set_om l (as_real o) g2 | _ => None end
                 else Some g2) = Some g' /\ received b l c p g g').
  { destruct (send_om l) eqn:Em.
    - rewrite (read_at_block w j (dims + (if send_v l then dims else 0)) 1 buf _ Hblk Hlen) by lia.
      unfold genc. fold x'. rewrite Em, app_assoc. rewrite skipn_app_exact
        by (rewrite app_length, Hrl; destruct (send_v l); [rewrite map_length|cbn]; lia).
      cbn [firstn as_real].
      assert (Hgo : exists i, om_entry l = Some i /\ (i < length (scals g))%nat).
      { specialize (Hog eq_refl Em). unfold get_om in Hog. destruct (om_entry l) as [i|]; [|congruence]. exists i. split; [reflexivity|].
        now apply nth_error_Some. }
      destruct Hgo as (i & Ei & Hi). unfold set_om. rewrite Ei.
      assert (Hs : scals g2 = scals g) by reflexivity. rewrite Hs.
      assert (Hsl : (2 <= length (set_nth i (om_of l p) (scals g)))%nat) by (rewrite set_nth_len; cbn; lia).
      destruct (set_nth i (om_of l p) (scals g)) as [|sg [|im es]] eqn:Es; try (cbn in Hsl; lia).
      eexists. split; [reflexivity|]. unfold received. rewrite Em, Ei, Es. cbn. repeat split; reflexivity.
    - exists g2. split; [reflexivity|]. unfold received. rewrite Em. cbn. repeat split; reflexivity. }
  destruct E3 as (g' & E3 & R). rewrite E3.
  destruct (write_nth id g' m) as (m' & E & L & K). { apply nth_error_Some. congruence. }
  exists g', m'. auto.
Qed.

Lemma unpack_ghost_loop_spec b l c dims buf : length b = dims -> length c = dims -> forall ps gs j id m,
  (forall p, In p ps -> length (p_x p) = dims /\ length (p_v p) = dims /\ om_ok l p) ->
  (forall g, In g gs -> om_ok l g) -> length gs = length ps ->
  (forall i g, nth_error gs i = Some g -> nth_error m (id + i) = Some g) ->
  (forall i p, nth_error ps i = Some p -> block (ghost_width l dims) (j + i) buf = genc b l c p (om_of l p)) ->
  exists m', unpack_ghost_loop l dims j (length ps) id buf m = Some m' /\ length m' = length m /\
    (forall i p g, nth_error ps i = Some p -> nth_error gs i = Some g ->
       exists g', nth_error m' (id + i) = Some g' /\ received b l c p g g') /\
    forall k, (k < id)%nat \/ (id + length ps <= k)%nat -> nth_error m' k = nth_error m k.
Proof.
  intros Hb Hc. induction ps as [|p ps IH]; intros [|g gs] j id m Hp Hg Hl Hm Hblk; try discriminate; cbn [length unpack_ghost_loop].
  - exists m. split; [reflexivity|]. split; [reflexivity|]. split; [intros [|i] p g E; discriminate|reflexivity].
  - destruct (Hp p (or_introl eq_refl)) as (P1 & P2 & P3).
    destruct (unpack_ghost_one_spec b l c dims j id p g buf m Hb Hc P1 P2 P3) as (g1 & m1 & E1 & R1 & L1 & K1).
    { specialize (Hm O g eq_refl). now rewrite Nat.add_0_r in Hm. }
    { specialize (Hblk O p eq_refl). now rewrite Nat.add_0_r in Hblk. }
    { intros _. apply Hg. now left. }
    rewrite E1. destruct (IH gs (S j) (S id) m1) as (m' & E & L & R & K).
    + intros q Hq. apply Hp. now right.
    + intros q Hq. apply Hg. now right.
    + cbn in Hl. lia.
    + intros i q Eq. rewrite K1. destruct (Nat.eqb_spec (S id + i) id); [lia|]. replace (S id + i)%nat with (id + S i)%nat by lia. now apply Hm.
    + intros i q Eq. replace (S j + i)%nat with (j + S i)%nat by lia. now apply Hblk.
    + exists m'. split; [exact E|]. split; [congruence|]. split.
      * intros [|i] q h Eq Eh; cbn in Eq, Eh.
        -- injection Eq as <-. injection Eh as <-. exists g1. rewrite Nat.add_0_r. split; [|exact R1].
           rewrite K by lia. rewrite K1, Nat.eqb_refl. reflexivity.
        -- replace (id + S i)%nat with (S id + i)%nat by lia. now apply R.
      * intros k Hk. rewrite K by lia. rewrite K1. destruct (Nat.eqb_spec k id); [lia|reflexivity].
Qed.

Lemma relative_image b x c d a xd cd : nth_error b d = Some a -> nth_error x d = Some xd -> nth_error c d = Some cd ->
  (lo a <= cd <= hi a)%Q -> (forall q, xd = Some q -> lo a <= q <= hi a)%Q ->
  exists y, nth_error (relative_position b x c) d = Some y /\ image_component a xd y /\ closest_component a cd xd y.
Proof.
  intros H1 H2 H3 Hc Hx. rewrite (relative_nth b x c d a xd cd H1 H2 H3). eexists. split; [reflexivity|].
  destruct xd as [q|]; cbn [option_map image_component closest_component]; [|auto].
  specialize (Hx q eq_refl). assert (Hlh : (lo a <= hi a)%Q) by lra.
  assert (Habs : (Qabs (q - cd) <= wd a)%Q).
  { unfold wd. apply Qabs_case; intros; lra. }
  split.
  - destruct (bc_eqb_spec (bc a) WRAP) as [Eb|Eb].
    + destruct (min_image1_congr a (q - cd) Hlh) as [k Hk]. 
      exists k. rewrite Hk. unfold wd. ring.
    + exists 0%Z. rewrite (min_image1_nowrap a (q - cd) Eb). change (inject_Z 0) with 0%Q. ring.
  - intros Eb k. assert (E : (cd + min_image1 a (q - cd) - cd == min_image1 a (q - cd))%Q) by ring. rewrite E.
    pose proof (min_image1_min a (q - cd) k Eb Hlh Habs) as Hm.
    assert (E' : (q + inject_Z k * wd a - cd == q - cd + inject_Z k * wd a)%Q) by ring. rewrite E'. exact Hm.
Qed.
