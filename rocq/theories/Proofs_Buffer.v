(* Proofs about the buffers. *)
From Coq Require Import String.
From Verif Require Import Lib Model_Geometry Model_Store Model_Buffer Spec_Store Spec_Buffer Proofs_Store1 Proofs_Store2
  Proofs_Store3 Proofs_Store4 Proofs_Store5 Proofs_Store6.
From Coq Require Import Permutation ZifyBool ZifyNat.
Local Open Scope list_scope.

Lemma skipn_skipn {A} x y (l : list A) : skipn x (skipn y l) = skipn (x + y) l.
Proof.
  revert x l. induction y as [|y IH]; intros x l; [now rewrite Nat.add_0_r|]. rewrite Nat.add_succ_r. destruct l as [|a l]; [now rewrite !skipn_nil|].
  cbn [skipn]. apply IH.
Qed.
Lemma nth_error_ext {A} (l l' : list A) : (forall k, nth_error l k = nth_error l' k) -> l = l'.
Proof.
  revert l'. induction l as [|a l IH]; intros [|b l'] H; auto; try (specialize (H O); discriminate).
  pose proof (H O) as H0. injection H0 as ->. f_equal. apply IH. intros k. apply (H (S k)).
Qed.

(* ------------------------------------------------------------------ writes and reads *)
Lemma write_at_some pos ws buf : (pos + length ws <= length buf)%nat -> exists b, write_at pos ws buf = Some b.
Proof. intros H. unfold write_at. destruct (Nat.leb_spec (pos + length ws) (length buf)); [eauto|lia]. Qed.

Lemma write_at_inv pos ws buf b : write_at pos ws buf = Some b -> (pos + length ws <= length buf)%nat /\
  b = firstn pos buf ++ ws ++ skipn (pos + length ws) buf /\ length b = length buf.
Proof.
  unfold write_at. destruct (Nat.leb_spec (pos + length ws) (length buf)) as [H|]; [|discriminate]. intros E. injection E as <-.
  split; [exact H|]. split; [reflexivity|]. rewrite !app_length, firstn_length, skipn_length. lia.
Qed.

Lemma firstn_app_exact {A} (l l' : list A) n : length l = n -> firstn n (l ++ l') = l.
Proof. intros <-. rewrite firstn_app, Nat.sub_diag, firstn_all. now rewrite app_nil_r. Qed.
Lemma skipn_app_exact {A} (l l' : list A) n : length l = n -> skipn n (l ++ l') = l'.
Proof. intros <-. rewrite skipn_app, Nat.sub_diag, skipn_all. reflexivity. Qed.

Lemma write_at_app pos a c buf : write_at pos (a ++ c) buf =
  match write_at pos a buf with Some b => write_at (pos + length a) c b | None => None end.
Proof.
  unfold write_at. rewrite app_length.
  destruct (Nat.leb_spec (pos + length a) (length buf)) as [H1|H1].
  - rewrite !app_length, firstn_length, skipn_length.
    destruct (Nat.leb_spec (pos + (length a + length c)) (length buf)) as [H2|H2];
    destruct (Nat.leb_spec (pos + length a + length c) (Nat.min pos (length buf) + (length a + (length buf - (pos + length a))))) as [H3|H3];
      try lia; [|reflexivity].
    f_equal.
    assert (Hf : firstn (pos + length a) (firstn pos buf ++ a ++ skipn (pos + length a) buf) = firstn pos buf ++ a).
    { rewrite app_assoc. apply firstn_app_exact. rewrite app_length, firstn_length. lia. }
    assert (Hs : skipn (pos + length a + length c) (firstn pos buf ++ a ++ skipn (pos + length a) buf) = skipn (pos + (length a + length c)) buf).
    { rewrite app_assoc. rewrite skipn_app. rewrite skipn_all2 by (rewrite app_length, firstn_length; lia). cbn.
      rewrite app_length, firstn_length, Nat.min_l by lia. rewrite skipn_skipn. f_equal. lia. }
    rewrite Hf, Hs. now rewrite <- !app_assoc.
  - destruct (Nat.leb_spec (pos + (length a + length c)) (length buf)); [lia|reflexivity].
Qed.

Lemma pack_words_write base i ws buf : (base + i + length ws <= length buf)%nat ->
  pack_words base i ws buf = write_at (base + i) ws buf.
Proof.
  revert i buf. induction ws as [|w ws IH]; intros i buf H; cbn [pack_words].
  - unfold write_at. cbn [length] in *. destruct (Nat.leb_spec (base + i + 0) (length buf)); [|lia]. f_equal.
    rewrite Nat.add_0_r. cbn. now rewrite firstn_skipn.
  - change (w :: ws) with ([w] ++ ws). rewrite write_at_app. cbn [length] in *.
    destruct (write_at (base + i) [w] buf) as [b|] eqn:E; [|reflexivity].
    apply write_at_inv in E as (_ & _ & L). rewrite IH by lia. f_equal. lia.
Qed.

Lemma pack_vecs_write base dims i vs buf : (forall v, In v vs -> length v = dims) ->
  (base + i * dims + length vs * dims <= length buf)%nat ->
  pack_vecs base dims i vs buf = write_at (base + i * dims) (flat_map (map WR) vs) buf.
Proof.
  revert i buf. induction vs as [|v vs IH]; intros i buf Hv H; cbn [pack_vecs flat_map].
  - unfold write_at. cbn [length] in *. destruct (Nat.leb_spec (base + i * dims + 0) (length buf)); [|lia]. f_equal.
    rewrite Nat.add_0_r. cbn. now rewrite firstn_skipn.
  - rewrite write_at_app. destruct (write_at (base + i * dims) (map WR v) buf) as [b|] eqn:E; [|reflexivity].
    apply write_at_inv in E as (_ & _ & L). cbn [length] in H. rewrite map_length, (Hv v) by now left.
    rewrite IH; [|intros u Hu; apply Hv; now right|lia]. f_equal. lia.
Qed.

(* The block of words of one particle. *)
Definition enc (p : part) : list word := flat_map (map WR) (vecs p) ++ map WR (scals p) ++ map WI (ints p).

Lemma flat_map_len dims (vs : list (list num)) : (forall v, In v vs -> length v = dims) ->
  length (flat_map (map WR) vs) = (length vs * dims)%nat.
Proof.
  induction vs as [|v vs IH]; intros H; [reflexivity|]. cbn [flat_map length]. rewrite app_length, map_length, (H v) by now left.
  rewrite IH; [lia|]. intros u Hu. apply H. now right.
Qed.

Lemma shaped_vecs s p : shaped s p -> length (vecs p) = nvectors s /\ (forall v, In v (vecs p) -> length v = st_dims s) /\
  length (scals p) = nscalars s /\ length (ints p) = nintegers s.
Proof.
  intros (H1 & H2 & H3 & H4 & H5 & H6 & H7). unfold vecs, scals, ints, nvectors, nscalars, nintegers. cbn [length].
  rewrite H4, H6, H7. split; [reflexivity|]. split; [|split; reflexivity]. intros v [<-|[<-|[<-|Hv]]]; auto.
Qed.
Lemma enc_len s p : shaped s p -> length (enc p) = data_width s.
Proof.
  intros H. destruct (shaped_vecs s p H) as (H1 & H2 & H3 & H4). unfold enc, data_width.
  rewrite !app_length, !map_length, (flat_map_len (st_dims s)) by exact H2. lia.
Qed.

Lemma pack_one_write s j p buf : shaped s p -> (data_width s * j + data_width s <= length buf)%nat ->
  pack_one (st_dims s) (data_width s) j p buf = write_at (data_width s * j) (enc p) buf.
Proof.
  intros Hs Hl. destruct (shaped_vecs s p Hs) as (H1 & H2 & H3 & H4).
  set (dw := data_width s) in *. assert (Hdw : dw = (length (vecs p) * st_dims s + length (scals p) + length (ints p))%nat).
  { unfold dw, data_width. lia. }
  unfold pack_one, enc. rewrite pack_vecs_write by (auto; lia). rewrite Nat.mul_0_l, Nat.add_0_r, write_at_app.
  destruct (write_at (dw * j) (flat_map (map WR) (vecs p)) buf) as [b1|] eqn:E1; [|reflexivity].
  apply write_at_inv in E1 as (_ & _ & L1). rewrite (flat_map_len (st_dims s)) by exact H2.
  rewrite pack_words_write by (rewrite map_length; lia). rewrite Nat.add_0_r, write_at_app.
  destruct (write_at (dw * j + length (vecs p) * st_dims s) (map WR (scals p)) b1) as [b2|] eqn:E2; [|reflexivity].
  apply write_at_inv in E2 as (_ & _ & L2). rewrite map_length.
  rewrite pack_words_write by (rewrite map_length; lia). now rewrite Nat.add_0_r.
Qed.

(* Block j of a buffer. *)
Definition block (dw j : nat) (buf : list word) : list word := firstn dw (skipn (dw * j) buf).

Lemma write_at_block dw j j' ws buf b : length ws = dw -> write_at (dw * j) ws buf = Some b ->
  block dw j' b = if (j' =? j)%nat then ws else block dw j' buf.
Proof.
  intros Hw E. apply write_at_inv in E as (H & -> & L). unfold block.
  destruct (Nat.eqb_spec j' j) as [->|Hj].
  - rewrite skipn_app_exact by (rewrite firstn_length; lia). now apply firstn_app_exact.
  - destruct (Nat.lt_ge_cases j' j) as [Hlt|Hge].
    + rewrite skipn_app, firstn_app. rewrite !skipn_length, firstn_length.
      assert (dw * j' + dw <= dw * j)%nat by nia.
      replace (dw - (Nat.min (dw * j) (length buf) - dw * j'))%nat with O by lia. rewrite firstn_O, app_nil_r.
      rewrite skipn_firstn_comm, firstn_firstn. f_equal. lia.
    + assert (dw * j + dw <= dw * j')%nat by nia.
      rewrite skipn_app. rewrite skipn_all2 by (rewrite firstn_length; lia). rewrite firstn_length, Nat.min_l by lia. cbn [app].
      rewrite skipn_app. rewrite skipn_all2 by lia. cbn [app]. rewrite skipn_skipn. f_equal. f_equal. lia.
Qed.

(* ------------------------------------------------------------------ packing *)
Lemma enlarge_len n buf : (n <= length (enlarge n buf))%nat.
Proof. unfold enlarge. rewrite app_length, repeat_length. lia. Qed.

(* The blocks of a packed buffer, when nothing is removed or the ids are distinct. *)
Lemma pack_loop_spec dw ids ps j remove buf s : dw = data_width s -> inv s ->
  records s ids ps -> Forall (shaped s) ps -> (remove = true -> NoDup ids) ->
  ((j + length ids) * dw <= length buf)%nat ->
  exists buf' s', pack_loop dw j ids remove buf s = Some (buf', s') /\ length buf' = length buf /\
    (forall i p, nth_error ps i = Some p -> block dw (j + i) buf' = enc p) /\
    (forall i, (i < j)%nat -> block dw i buf' = block dw i buf) /\
    (if remove then run (mark_all (map Z.of_nat ids)) s = Some s' else s' = s).
Proof.
  intros ->. revert ps j buf s. induction ids as [|id ids IH]; intros ps j buf s I Hr Hsh Hnd Hl; cbn [pack_loop].
  - inversion Hr; subst. exists buf, s. split; [reflexivity|]. split; [reflexivity|]. split; [intros [|i] p E; discriminate|].
    split; [reflexivity|]. destruct remove; reflexivity.
  - inversion Hr as [|? p ? ps' [Hp1 Hp2] Hr' e1 e2]; subst. inversion Hsh as [|? ? Hs1 Hs2]; subst. cbn [length] in Hl.
    rewrite Hp2. rewrite pack_one_write by (auto; nia).
    destruct (write_at_some (data_width s * j) (enc p) buf) as [b1 E1]. { rewrite (enc_len s) by exact Hs1. nia. }
    rewrite E1. pose proof (write_at_block (data_width s) j) as Hblk. specialize (fun j' => Hblk j' (enc p) buf b1 (enc_len s p Hs1) E1).
    pose proof E1 as E1'. apply write_at_inv in E1' as (_ & _ & L1).
    destruct remove.
    + specialize (Hnd eq_refl). inversion Hnd as [|? ? Hni Hnd']; subst.
      pose proof (inv_size _ I) as Hc.
      destruct (mark_spec (Z.of_nat id) s I ltac:(lia) ltac:(lia)) as (s1 & Em & I1 & _ & C1 & S1 & _ & _ & D1 & Dd & Da).
      assert (Hlay : st_nev s1 = st_nev s /\ st_nes s1 = st_nes s /\ st_nei s1 = st_nei s).
      { unfold markForRemoval in Em. destruct (Z.of_nat id <? 0)%Z; [discriminate|]. destruct (nth_error (st_mem s) (Z.to_nat (Z.of_nat id))) as [q|]; [|discriminate].
        destruct ((p_type q <? 0)%Z || (Z.of_nat (st_size s) <=? Z.of_nat id)%Z)%bool; [injection Em as <-; auto|].
        destruct (write (Z.to_nat (Z.of_nat id)) (set_x (far_x (p_x q)) (set_type (-1) q)) (st_mem s)); [|discriminate]. injection Em as <-. auto. }
      destruct Hlay as (Ln1 & Ln2 & Ln3).
      assert (Hdw : data_width s1 = data_width s) by (unfold data_width, nvectors, nscalars, nintegers; congruence).
      assert (Hoth : forall k, k <> id -> nth_error (st_mem s1) k = nth_error (st_mem s) k).
      { intros k Hk. destruct (aliveb p) eqn:Ea.
        - apply aliveb_spec in Ea. destruct (Da p) as (_ & _ & _ & O); [rewrite Nat2Z.id; split; auto|exact Ea|].
          apply O. now rewrite Nat2Z.id.
        - rewrite Dd; [reflexivity|]. rewrite Nat2Z.id. intros q [_ Hq] Ha. rewrite Hp2 in Hq. injection Hq as <-.
          apply aliveb_spec in Ha. congruence. }
      rewrite Em.
      destruct (IH ps' (S j) b1 s1 I1) as (b & s' & E & L & B1 & B2 & R).
      * clear - Hr' Hoth Hni S1. unfold records in *. induction Hr' as [|k q ks qs [H1 H2] H IHf]; constructor.
        -- split; [congruence|]. rewrite Hoth; [exact H2|]. intros ->. apply Hni. now left.
        -- apply IHf. intros Hin. apply Hni. now right.
      * eapply Forall_impl; [|exact Hs2]. intros q. unfold shaped. now rewrite D1, Ln1, Ln2, Ln3.
      * auto.
      * rewrite Hdw, L1. nia.
      * rewrite Hdw in *. exists b, s'. split; [exact E|]. split; [congruence|]. split; [|split].
        -- intros [|i] q Eq; cbn in Eq.
           ++ injection Eq as <-. rewrite Nat.add_0_r, B2 by lia. rewrite Hblk, Nat.eqb_refl. reflexivity.
           ++ replace (j + S i)%nat with (S j + i)%nat by lia. now apply B1.
        -- intros i Hi. rewrite B2 by lia. rewrite Hblk. destruct (Nat.eqb_spec i j); [lia|reflexivity].
        -- cbn [map mark_all]. unfold mark_all. cbn [map run step]. rewrite Em. exact R.
    + destruct (IH ps' (S j) b1 s I) as (b & s' & E & L & B1 & B2 & R); auto; [discriminate|rewrite L1; nia|].
      exists b, s'. split; [exact E|]. split; [congruence|]. split; [|split; [|exact R]].
      * intros [|i] q Eq; cbn in Eq.
        -- injection Eq as <-. rewrite Nat.add_0_r, B2 by lia. rewrite Hblk, Nat.eqb_refl. reflexivity.
        -- replace (j + S i)%nat with (S j + i)%nat by lia. now apply B1.
      * intros i Hi. rewrite B2 by lia. rewrite Hblk. destruct (Nat.eqb_spec i j); [lia|reflexivity].
Qed.

(* ------------------------------------------------------------------ unpacking *)
Lemma read_at_block dw j off n buf b : block dw j buf = b -> length b = dw -> (off + n <= dw)%nat ->
  read_at (dw * j + off) n buf = Some (firstn n (skipn off b)).
Proof.
  intros Hb Hl Hn. assert (Hlen : (dw * j + dw <= length buf)%nat \/ dw = O).
  { rewrite <- Hb in Hl. unfold block in Hl. rewrite firstn_length, skipn_length in Hl. lia. }
  unfold read_at. destruct (Nat.leb_spec (dw * j + off + n) (length buf)) as [H|H].
  - f_equal. rewrite <- Hb. unfold block. rewrite skipn_firstn_comm, firstn_firstn, skipn_skipn. f_equal; [lia|]. f_equal. lia.
  - destruct Hlen as [Hlen|Hlen]; [lia|]. subst dw. exfalso. cbn in H. lia.
Qed.

Lemma unpack_words_read dw j off i n buf b : block dw j buf = b -> length b = dw -> (off + i + n <= dw)%nat ->
  unpack_words (dw * j + off) i n buf = Some (firstn n (skipn (off + i) b)).
Proof.
  intros Hb Hl. revert i. induction n as [|n IH]; intros i H; cbn [unpack_words]; [now rewrite firstn_O|].
  replace (dw * j + off + i)%nat with (dw * j + (off + i))%nat by lia. rewrite (read_at_block dw j (off + i) 1 buf b) by (auto; lia).
  rewrite IH by lia. f_equal.
  replace (off + S i)%nat with (1 + (off + i))%nat by lia. rewrite <- (skipn_skipn 1 (off + i)).
  set (l := skipn (off + i) b). replace (S n) with (1 + n)%nat by lia.
  assert (Hlen : (1 <= length l)%nat) by (unfold l; rewrite skipn_length; lia).
  destruct l as [|a l]; [cbn in Hlen; lia|]. reflexivity.
Qed.

Lemma unpack_vecs_read dw j dims i n buf b : block dw j buf = b -> length b = dw -> (i * dims + n * dims <= dw)%nat ->
  forall vs rest, skipn (i * dims) b = flat_map (map WR) vs ++ rest -> length vs = n -> (forall v, In v vs -> length v = dims) ->
  unpack_vecs (dw * j) dims i n buf = Some vs.
Proof.
  intros Hb Hl. revert i. induction n as [|n IH]; intros i H vs rest Es Hn Hv; cbn [unpack_vecs].
  - destruct vs; [reflexivity|discriminate].
  - destruct vs as [|v vs]; [discriminate|]. rewrite (read_at_block dw j (i * dims) dims buf b) by (auto; lia).
    cbn [flat_map] in Es. rewrite <- app_assoc in Es. rewrite Es.
    rewrite firstn_app_exact by (rewrite map_length; apply Hv; now left).
    rewrite (IH (S i) ltac:(lia) vs rest).
    + f_equal. f_equal. rewrite map_map. cbn. now rewrite map_id.
    + replace (S i * dims)%nat with (dims + i * dims)%nat by lia. rewrite <- skipn_skipn, Es.
      apply skipn_app_exact. rewrite map_length. apply Hv. now left.
    + cbn in Hn. lia.
    + intros u Hu. apply Hv. now right.
Qed.

Lemma of_entries_id p : of_entries (vecs p) (scals p) (ints p) = Some p.
Proof. destruct p. reflexivity. Qed.

Lemma write_nth i p m : (i < length m)%nat -> exists m', write i p m = Some m' /\ length m' = length m /\
  forall k, nth_error m' k = if (k =? i)%nat then Some p else nth_error m k.
Proof.
  revert i. induction m as [|q m IH]; intros i H; [cbn in H; lia|]. destruct i as [|i]; cbn [write].
  - eexists. split; [reflexivity|]. split; [reflexivity|]. intros [|k]; reflexivity.
  - destruct (IH i ltac:(cbn in H; lia)) as (m' & E & L & K). rewrite E. eexists. split; [reflexivity|]. split; [cbn; lia|].
    intros [|k]; [reflexivity|]. cbn. apply K.
Qed.

Definition fits (s : store) : Prop := (st_size s <= st_cap s)%nat.

(* addParticles 1 false, without the invariant *)
Lemma add1_spec s : fits s -> exists s1, addParticles 1 false s = Some (Z.of_nat (st_size s), s1) /\ fits s1 /\
  st_size s1 = S (st_size s) /\ st_number s1 = (st_number s + 1)%Z /\ st_map s1 = st_map s /\ st_rm s1 = st_rm s /\
  st_next s1 = st_next s /\ st_d s1 = st_d s /\ same_layout s s1 /\
  forall k, (k < st_size s)%nat -> nth_error (st_mem s1) k = nth_error (st_mem s) k.
Proof.
  unfold fits. intros H. unfold addParticles. cbn [Z.leb Z.compare]. unfold st_cap in *.
  set (s0 := if (Z.of_nat (length (st_mem s)) <? Z.of_nat (st_size s) + 1)%Z
             then resize (Z.max 32 ((1 + Z.of_nat (st_size s) - Z.of_nat (length (st_mem s))) / 10)) s else s).
  assert (H0 : (st_size s < length (st_mem s0))%nat /\ st_size s0 = st_size s /\ st_number s0 = st_number s /\ st_map s0 = st_map s /\
    st_rm s0 = st_rm s /\ st_next s0 = st_next s /\ st_d s0 = st_d s /\ same_layout s s0 /\ 
    forall k, (k < st_size s)%nat -> nth_error (st_mem s0) k = nth_error (st_mem s) k).
  { unfold s0. destruct (Z.ltb_spec (Z.of_nat (length (st_mem s))) (Z.of_nat (st_size s) + 1)) as [Hc|Hc].
    - destruct (resize_spec (Z.max 32 ((1 + Z.of_nat (st_size s) - Z.of_nat (length (st_mem s))) / 10)) s ltac:(lia)) as (E & _).
      unfold resize in *. destruct (Z.leb_spec (Z.max 32 ((1 + Z.of_nat (st_size s) - Z.of_nat (length (st_mem s))) / 10)) 0); [lia|].
      cbn. split; [rewrite app_length, repeat_length; lia|]. repeat (split; [reflexivity|]). split; [repeat split|].
      intros k Hk. apply nth_error_app1. lia.
    - split; [lia|]. repeat (split; [reflexivity|]). split; [repeat split|auto]. }
  destruct H0 as (H1 & E1 & E2 & E3 & E4 & E5 & E6 & E7 & E8).
  change (Z.to_nat 1) with 1%nat. cbn [add_loop]. unfold add_one. cbn [add_loop].
  destruct (write_nth (st_size s0) (set_type 0 (blank s0)) (st_mem s0)) as (m' & E & L & K); [lia|]. rewrite E.
  eexists. split; [reflexivity|]. cbn. split; [lia|]. split; [lia|]. split; [lia|]. split; [exact E3|]. split; [exact E4|].
  split; [exact E5|]. split; [exact E6|]. split; [exact E7|]. intros k Hk. rewrite K. destruct (Nat.eqb_spec k (st_size s0)); [lia|]. now apply E8.
Qed.

Lemma unpack_one_spec j p buf s : fits s -> shaped s p -> block (data_width s) j buf = enc p ->
  exists s', unpack_one (data_width s) j buf s = Some s' /\ fits s' /\ st_size s' = S (st_size s) /\
    st_number s' = (st_number s + 1)%Z /\ st_map s' = st_map s /\ st_rm s' = st_rm s /\ st_next s' = st_next s /\ st_d s' = st_d s /\
    same_layout s s' /\ nth_error (st_mem s') (st_size s) = Some p /\
    forall k, (k < st_size s)%nat -> nth_error (st_mem s') k = nth_error (st_mem s) k.
Proof.
  intros Hf Hs Hb. unfold unpack_one.
  destruct (add1_spec s Hf) as (s1 & E1 & F1 & S1 & N1 & M1 & R1 & X1 & D1 & L1 & K1). rewrite E1.
  destruct (shaped_vecs s p Hs) as (V1 & V2 & V3 & V4). pose proof (enc_len s p Hs) as Hl.
  set (dw := data_width s) in *.
  assert (Hdw : dw = (nvectors s * st_dims s + nscalars s + nintegers s)%nat) by reflexivity.
  rewrite (unpack_vecs_read dw j (st_dims s) 0 (nvectors s) buf (enc p) Hb Hl ltac:(lia) (vecs p) (map WR (scals p) ++ map WI (ints p)));
    [|reflexivity|exact V1|exact V2].
  rewrite (unpack_words_read dw j (nvectors s * st_dims s) 0 (nscalars s) buf (enc p) Hb Hl ltac:(lia)).
  rewrite <- (Nat.add_assoc (dw * j)).
  rewrite (unpack_words_read dw j (nvectors s * st_dims s + nscalars s) 0 (nintegers s) buf (enc p) Hb Hl ltac:(lia)).
  rewrite !Nat.add_0_r. unfold enc.
  assert (Hfl : length (flat_map (map WR) (vecs p)) = (nvectors s * st_dims s)%nat) by (rewrite (flat_map_len (st_dims s)) by exact V2; lia).
  rewrite skipn_app_exact by exact Hfl. rewrite firstn_app_exact by (rewrite map_length; exact V3).
  rewrite app_assoc. rewrite skipn_app_exact by (rewrite app_length, map_length; lia).
  rewrite <- V4, <- (map_length WI), firstn_all. rewrite !map_map. cbn [as_real as_int]. rewrite !map_id, of_entries_id.
  rewrite Nat2Z.id. destruct (write_nth (st_size s) p (st_mem s1)) as (m & E & L & K). { unfold fits, st_cap in F1. lia. }
  rewrite E. eexists. split; [reflexivity|]. unfold set_mem, fits, st_cap in *. cbn. split; [lia|]. repeat (split; [assumption|]).
  split; [rewrite K, Nat.eqb_refl; reflexivity|]. intros k Hk. rewrite K. destruct (Nat.eqb_spec k (st_size s)); [lia|]. auto.
Qed.

Lemma shaped_layout s r p : same_layout s r -> shaped s p -> shaped r p.
Proof. intros (H1 & H2 & H3 & H4) H. unfold shaped in *. now rewrite <- H1, <- H2, <- H3, <- H4. Qed.
Lemma width_layout s r : same_layout s r -> data_width s = data_width r.
Proof. intros (H1 & H2 & H3 & H4). unfold data_width, nvectors, nscalars, nintegers. now rewrite H1, H2, H3, H4. Qed.
Lemma same_layout_trans s r t : same_layout s r -> same_layout r t -> same_layout s t.
Proof. unfold same_layout. intuition congruence. Qed.

Lemma unpack_loop_spec ps j buf s : fits s -> Forall (shaped s) ps ->
  (forall i p, nth_error ps i = Some p -> block (data_width s) (j + i) buf = enc p) ->
  exists s', unpack_loop (data_width s) j (length ps) buf s = Some s' /\ fits s' /\ st_size s' = (st_size s + length ps)%nat /\
    st_number s' = (st_number s + Z.of_nat (length ps))%Z /\ st_map s' = st_map s /\ st_rm s' = st_rm s /\
    st_next s' = st_next s /\ st_d s' = st_d s /\ same_layout s s' /\
    (forall i p, nth_error ps i = Some p -> nth_error (st_mem s') (st_size s + i) = Some p) /\
    forall k, (k < st_size s)%nat -> nth_error (st_mem s') k = nth_error (st_mem s) k.
Proof.
  revert j s. induction ps as [|p ps IH]; intros j s Hf Hsh Hb; cbn [length unpack_loop].
  - exists s. split; [reflexivity|]. split; [exact Hf|]. split; [lia|]. split; [lia|]. repeat (split; [reflexivity|]).
    split; [repeat split|]. split; [intros [|i] p E; discriminate|reflexivity].
  - inversion Hsh; subst.
    destruct (unpack_one_spec j p buf s Hf ltac:(assumption)) as (s1 & E1 & F1 & S1 & N1 & M1 & R1 & X1 & D1 & L1 & P1 & K1).
    { specialize (Hb O p eq_refl). now rewrite Nat.add_0_r in Hb. }
    rewrite E1. rewrite (width_layout s s1 L1).
    destruct (IH (S j) s1 F1) as (s' & E & F & S2 & N2 & M2 & R2 & X2 & D2 & L2 & P2 & K2).
    + eapply Forall_impl; [|eassumption]. intros q. now apply shaped_layout.
    + intros i q Eq. rewrite <- (width_layout s s1 L1). replace (S j + i)%nat with (j + S i)%nat by lia. now apply Hb.
    + exists s'. split; [exact E|]. split; [exact F|]. split; [lia|]. split; [lia|]. split; [congruence|]. split; [congruence|].
      split; [congruence|]. split; [congruence|]. split; [eapply same_layout_trans; eauto|]. split.
      * intros [|i] q Eq; cbn in Eq.
        -- injection Eq as <-. rewrite Nat.add_0_r, K2 by lia. exact P1.
        -- replace (st_size s + S i)%nat with (st_size s1 + i)%nat by lia. now apply P2.
      * intros k Hk. rewrite K2 by lia. now apply K1.
Qed.

Lemma firstn_agree_len {A} n (m m' : list A) : (n <= length m)%nat -> (forall k, (k < n)%nat -> nth_error m' k = nth_error m k) ->
  firstn n m' = firstn n m.
Proof. intros _ H. symmetry. apply firstn_agree. intros k Hk. symmetry. now apply H. Qed.

(* After unpacking alive particles the receiver still satisfies its invariant. *)
Lemma unpack_inv ps s s' : inv s -> Forall alive ps -> st_size s' = (st_size s + length ps)%nat -> fits s' ->
  st_number s' = (st_number s + Z.of_nat (length ps))%Z -> st_rm s' = st_rm s ->
  (forall i p, nth_error ps i = Some p -> nth_error (st_mem s') (st_size s + i) = Some p) ->
  (forall k, (k < st_size s)%nat -> nth_error (st_mem s') k = nth_error (st_mem s) k) ->
  inv s' /\ particles s' = particles s ++ ps.
Proof.
  intros I Ha Hsz Hf Hn Hr Hnew Hold.
  pose proof (inv_size _ I) as Hc. unfold st_cap in Hc. unfold fits, st_cap in Hf.
  assert (E : firstn (st_size s') (st_mem s') = firstn (st_size s) (st_mem s) ++ ps).
  { apply nth_error_ext. intros k. destruct (Nat.lt_ge_cases k (st_size s)) as [Hk|Hk].
    - rewrite nth_error_firstn_lt by lia. rewrite nth_error_app1 by (rewrite firstn_length; lia).
      rewrite nth_error_firstn_lt by lia. now apply Hold.
    - rewrite nth_error_app2 by (rewrite firstn_length; lia). rewrite firstn_length, Nat.min_l by lia.
      destruct (nth_error ps (k - st_size s)) as [p|] eqn:Ep.
      + assert (k - st_size s < length ps)%nat by (apply nth_error_Some; congruence).
        rewrite nth_error_firstn_lt by lia. rewrite <- (Hnew _ _ Ep). f_equal. lia.
      + apply nth_error_None in Ep. apply nth_error_None. rewrite firstn_length. lia. }
  assert (Ep : particles s' = particles s ++ ps).
  { unfold particles. rewrite E, filter_app. f_equal. apply filter_all. intros p Hp. apply aliveb_spec.
    rewrite Forall_forall in Ha. now apply Ha. }
  split; [|exact Ep]. constructor.
  - unfold st_cap. lia.
  - pose proof (inv_number _ I) as Hnum. unfold count in *. rewrite Hn, Hnum. fold (particles s) (particles s'). rewrite Ep, app_length. lia.
  - rewrite Hr. apply I.
  - intros l. rewrite Hr, (inv_rm _ I). unfold at_. split.
    + intros (p & [H1 H2] & H3). exists p. split; [|exact H3]. split; [lia|]. rewrite Hold; auto.
    + intros (p & [H1 H2] & H3). destruct (Nat.lt_ge_cases l (st_size s)) as [Hl|Hl].
      * exists p. split; [|exact H3]. split; [exact Hl|]. now rewrite <- Hold.
      * exfalso. destruct (nth_error ps (l - st_size s)) as [q|] eqn:Eq.
        -- pose proof (Hnew _ _ Eq) as Hq. replace (st_size s + (l - st_size s))%nat with l in Hq by lia.
           rewrite H2 in Hq. injection Hq as <-. apply H3. rewrite Forall_forall in Ha. apply Ha. eapply nth_error_In; eauto.
        -- apply nth_error_None in Eq. lia.
Qed.
