(* The neighbour lists are young enough at every step of a run. *)
From Coq Require Import Reals Qreals.
From Verif Require Import Lib Model_Geometry Spec_Geometry Proofs_Geometry Model_Handlers Spec_Handlers Model_Cells Spec_Cells Properties_Cells
  Model_Verlet Proofs_Verlet Model_Field Model_Sweep Spec_Sweep Proofs_Sweep3 Proofs_Sweep6 Properties_Sweep Model_Steps Spec_Steps.
From Verif Require Proofs_Cells4 Proofs_Cells6 Proofs_Sweep5.
From Coq Require Import ZifyBool Lqa.
Local Open Scope Q_scope.

Lemma all_some_map {A B} (f : A -> option B) (R : A -> B -> Prop) : forall l, (forall x, In x l -> exists y, f x = Some y /\ R x y) ->
  exists r, all_some (map f l) = Some r /\ Forall2 R l r.
Proof.
  induction l as [|x l IH]; intros H; [exists []; split; constructor|].
  destruct (H x (or_introl eq_refl)) as (y & E & HR). destruct IH as (r & Er & F); [intros; apply H; now right|].
  exists (y :: r). cbn [map all_some]. rewrite E, Er. split; [reflexivity|now constructor].
Qed.

Definition axes_ok (b : box) : Prop := forall a, In a b -> lo a < hi a.
Lemma wrap_vec b : axes_ok b -> forall x, length x = length b -> exists y, all_some (wrap b x) = Some y /\ wrapped b y /\ same_point b y x.
Proof.
  induction b as [|a b IH]; intros HB [|x0 x] L; try discriminate.
  - exists []. split; [reflexivity|]. split; [constructor|]. split; [reflexivity|]. split; [reflexivity|]. intros d a H. destruct d; discriminate.
  - injection L as L. destruct (IH (fun c Hc => HB c (or_intror Hc)) x L) as (y & E & W & (L1 & _ & SP)).
    assert (H0 : exists y0, wrap1 a x0 = Some y0 /\ (bc a = WRAP -> lo a <= y0 <= hi a) /\ exists k : Z, y0 == x0 + inject_Z k * wd a /\ (bc a <> WRAP -> k = 0%Z)).
    { destruct (bc_eqb_spec (bc a) WRAP) as [e|n].
      - destruct (wrap1_correct a x0 e (HB a (or_introl eq_refl))) as (y0 & k & E0 & R & C). exists y0. split; [exact E0|]. split; [auto|]. exists k. split; [exact C|congruence].
      - exists x0. rewrite (wrap1_nowrap a x0 n). split; [reflexivity|]. split; [congruence|]. exists 0%Z. split; [unfold inject_Z; lra|auto]. }
    destruct H0 as (y0 & E0 & R0 & K0). exists (y0 :: y). cbn [wrap all_some]. rewrite E0, E. split; [reflexivity|].
    split; [constructor; auto|]. split; [cbn; lia|]. split; [cbn; lia|]. intros d c Hd. destruct d as [|d]; cbn [nth_error nth] in *; [injection Hd as <-; exact K0|exact (SP d c Hd)].
Qed.

Lemma wrap_all_ok b xs : axes_ok b -> (forall x, In x xs -> length x = length b) ->
  exists ys, wrap_all b xs = Some ys /\ Forall2 (fun x y => wrapped b y /\ same_point b y x) xs ys.
Proof.
  intros HB HL. unfold wrap_all, wrapPositions. rewrite firstn_all, skipn_all. cbn [map]. rewrite app_nil_r, map_map.
  apply all_some_map. intros x Hx. apply wrap_vec; auto.
Qed.

Lemma same_point_refl b x : length x = length b -> same_point b x x.
Proof. intros L. split; [exact L|]. split; [exact L|]. intros d a _. exists 0%Z. split; [unfold inject_Z; lra|auto]. Qed.
Lemma same_point_trans b x y z : same_point b x y -> same_point b y z -> same_point b x z.
Proof.
  intros (A & B & C) (A' & B' & C'). split; [exact A|]. split; [exact B'|]. intros d a Ha. destruct (C d a Ha) as (k & E & K). destruct (C' d a Ha) as (k' & E' & K').
  exists (k + k')%Z. split; [rewrite inject_Z_plus, E, E'; ring|]. intros N. rewrite (K N), (K' N). reflexivity.
Qed.

(* Square lengths. *)
Lemma sqr_length_head n x : sqr_length (S n) x == Qsqr (x 0%nat) + sqr_length n (fun d => x (S d)).
Proof. induction n as [|n IH]; [cbn [sqr_length]; ring|]. cbn [sqr_length] in *. rewrite IH. ring. Qed.
Lemma sqr_length_ext n x y : (forall d, (d < n)%nat -> x d == y d) -> sqr_length n x == sqr_length n y.
Proof. induction n as [|n IH]; intros H; cbn [sqr_length]; [reflexivity|]. rewrite IH by (intros; apply H; lia). unfold Qsqr. rewrite (H n) by lia. reflexivity. Qed.
Lemma dist2_length : forall n x y, length x = n -> length y = n -> dist2 x y == sqr_length n (fun d => nth d x 0 - nth d y 0).
Proof.
  induction n as [|n IH]; intros [|x0 x] [|y0 y] Lx Ly; try discriminate; [reflexivity|]. rewrite sqr_length_head. cbn [nth].
  injection Lx as Lx. injection Ly as Ly. rewrite <- (IH x y Lx Ly). reflexivity.
Qed.

(* Motion. *)
Lemma move_length xs ms : length ms = length xs -> length (move xs ms) = length xs.
Proof. intros H. unfold move. rewrite map_length, combine_length. lia. Qed.
Lemma move_nth : forall xs ms i, length ms = length xs -> (i < length xs)%nat -> nth i (move xs ms) [] = map (fun q => fst q + snd q) (combine (nth i xs []) (nth i ms [])).
Proof.
  induction xs as [|x xs IH]; intros [|m ms] i L Hi; try discriminate; [cbn in Hi; lia|]. destruct i as [|i]; [reflexivity|]. cbn [nth]. rewrite <- IH; [reflexivity|cbn in L; lia|cbn in Hi; lia].
Qed.
Lemma add_nth : forall x m d, length m = length x -> (d < length x)%nat -> nth d (map (fun q => fst q + snd q) (combine x m)) 0 = nth d x 0 + nth d m 0.
Proof. induction x as [|x0 x IH]; intros [|m0 m] d L Hd; try discriminate; [cbn in Hd; lia|]. destruct d as [|d]; [reflexivity|]. cbn. apply IH; cbn in *; lia. Qed.
Lemma travel_here ms i d a : travel ms i d a a == 0.
Proof. destruct a; [reflexivity|]. cbn [travel]. assert (H : (S a <=? a)%nat = false) by lia. rewrite H. reflexivity. Qed.
Lemma travel_on ms i d a b : (a <= b)%nat -> travel ms i d a (S b) = travel ms i d a b + nth d (nth i (ms b) []) 0.
Proof. intros H. cbn [travel]. assert (E : (a <=? b)%nat = true) by lia. rewrite E. reflexivity. Qed.

(* Time. *)
Lemma clock_mono clock : steady_clock clock -> forall a b, (a <= b)%nat -> clock a <= clock b.
Proof. intros (_ & H) a b L. induction L as [|b L IH]; [lra|]. destruct (H b). lra. Qed.
Lemma clock_shrink1 clock : steady_clock clock -> forall a b, (a <= b)%nat -> clock (S b) - clock (S a) <= clock b - clock a.
Proof. intros (_ & H) a b L. induction L as [|b L IH]; [lra|]. destruct (H b). lra. Qed.
Lemma clock_shrink clock : steady_clock clock -> forall j a b, (a <= b)%nat -> clock (b + j)%nat - clock (a + j)%nat <= clock b - clock a.
Proof.
  intros HC. induction j as [|j IH]; intros a b L; [rewrite !Nat.add_0_r; lra|]. rewrite !Nat.add_succ_r.
  assert (A := clock_shrink1 clock HC (a + j) (b + j) ltac:(lia)). specialize (IH a b L). lra.
Qed.

Section RUN.
Variables (b : box) (its : nat -> inter) (n : nat) (ss : list setting) (fm0 : force_master) (sk mss : Q) (gs : list gaxis)
  (ps0 : list particle) (tol fac maxdel : Q) (clock : nat -> Q) (ms : nat -> list (list Q)).
Hypothesis HV : valid_types n ss.
Hypothesis HR : forall s, In s ss -> s_refl s = true.
Hypothesis HC : forall it, 0 <= i_cut (its it) <= 1.
Hypothesis HA : apply_settings (fun i => i_cut (its i)) ss (new_fm n) = Some fm0.
Let fm := initialize fm0.
Let e := handler_env its fm sk mss gs (map wd b).
Hypothesis HSP : small_particles b e n ps0.
Hypothesis HM : moves_for b ps0 ms.
Let s := mkSetup b fm e tol fac maxdel 2.
Let dp := mkPart [] 0 0.

Definition like_ps0 (ps : list particle) : Prop :=
  length ps = length ps0 /\ (forall i, (i < length ps0)%nat -> prd (nth i ps dp) = prd (nth i ps0 dp) /\ ptype (nth i ps dp) = ptype (nth i ps0 dp)).
Definition all_wrapped (ps : list particle) : Prop := forall i, (i < length ps0)%nat -> wrapped b (px (nth i ps dp)).

Lemma axes : axes_ok b.
Proof.
  intros a Ha. destruct HSP as ((_ & _ & HP) & HL & _). assert (A := proj1 (Forall_forall _ _) HL _ Ha). destruct A as [A _]. unfold wd in A. lra.
Qed.
Lemma searched ps : like_ps0 ps -> all_wrapped ps -> searchable b e n ps.
Proof.
  intros (L & T) W. destruct HSP as (A & B & C & D & P).
  assert (PP : forall p, In p ps -> 0 <= prd p /\ wrapped b (px p) /\ (-1 <= ptype p < Z.of_nat n)%Z /\ sigma e p <= max_small_sigma e).
  { intros p Hp. destruct (In_nth ps p dp Hp) as (i & Hi & E). rewrite L in Hi. destruct (T i Hi) as [T1 T2]. rewrite <- E.
    destruct (P (nth i ps0 dp)) as (P1 & P2 & P3 & P4); [apply nth_In; exact Hi|]. unfold sigma in *. rewrite T1, T2. split; [exact P1|]. split; [exact (W i Hi)|]. split; [exact P3|exact P4]. }
  split; [exact A|]. split; [exact B|]. split; [exact C|]. split; [exact D|].
  split. { intros p Hp. destruct (PP p Hp) as (P1 & P2 & P3 & _). auto. }
  split. { intros p Hp Hlt. exfalso. destruct (PP p Hp) as (_ & _ & _ & P4). lra. }
  split. { intros i j pi pj _ Hi _ Hlt. exfalso. destruct (PP pi (nth_error_In _ _ Hi)) as (_ & _ & _ & P4). lra. }
  intros p q a Hp _ _ _ Hlt. exfalso. destruct (PP p Hp) as (_ & _ & _ & P4). lra.
Qed.

Lemma lists_made ps old it : like_ps0 ps -> all_wrapped ps -> some_lists old ->
  exists L, construct_lists fm e ps it old = Some L /\ some_lists L.
Proof.
  intros HL HW (hist & V & C). destruct (searched ps HL HW) as (A & B & D & SK & P & F & _).
  assert (PP : forall p, In p ps -> 0 <= prd p /\ wrapped b (px p)) by (intros p Hp; destruct (P p Hp) as (P1 & P2 & _); auto).
  destruct (C20_no_pair_is_missed_partial b e ps A B D) as (vs & Hvs & _); auto.
  { lra. } { intros. split; [apply (grid_sym b its n ss fm0 sk mss gs HV HR HA)|apply (grid_cut b its fm0 sk mss gs HC)]. } { apply (grid_max b its n ss fm0 sk mss gs HV HA). }
  assert (FL : forall i j w, In (i, j, w) vs -> w = 0%Z \/ w = 1%Z) by (intros i j w; apply (visit_flag b its n ss fm0 sk mss gs ps HV HC HA A B D SK PP vs i j w Hvs)).
  destruct (construct_visits fm e ps it hist old vs 0 V C Hvs FL ltac:(lia)) as (L & EL & _). exists L. split; [exact EL|].
  unfold construct_lists in EL. rewrite Hvs in EL. exists (hist ++ (Clear :: pair_calls fm ps it vs ++ [Close])). split.
  - intros x y k H. apply in_app_iff in H. destruct H as [H|H]; [eapply V; exact H|]. destruct H as [H|H]; [discriminate|].
    apply in_app_iff in H. destruct H as [H|[H|[]]]; [|discriminate].
    destruct (pair_calls_no_clear _ _ _ _ _ H) as (i & j & w & Hv & E). injection E as -> -> ->. destruct (FL _ _ _ Hv) as [-> | ->]; cbn; lia.
  - assert (Happ : forall cs h s0, calls pairs_call (h ++ cs) s0 = match calls pairs_call h s0 with Some s1 => calls pairs_call cs s1 | None => None end).
    { clear. intros cs. induction h as [|c h IH]; intros s0; [reflexivity|]. cbn [app]. cbn [calls]. destruct (pairs_call c s0); [apply IH|reflexivity]. }
    rewrite Happ, C. exact EL.
Qed.

(* Where the particles are: after k moves, of which a were made before the last search. *)
Record where_ok (a k : nat) (t : state) : Prop := mkWhere {
  wo_len : length (t_xs t) = length ps0;
  wo_dim : forall i, (i < length ps0)%nat -> length (nth i (t_xs t) []) = length b;
  wo_since : forall i d, (i < length ps0)%nat -> (d < length b)%nat ->
    nth d (nth i (t_xs t) []) 0 == nth d (px (nth i (t_found t) dp)) 0 + travel ms i d a k;
  wo_place : forall i d c, (i < length ps0)%nat -> nth_error b d = Some c -> exists z : Z,
    nth d (nth i (t_xs t) []) 0 == nth d (px (nth i ps0 dp)) 0 + travel ms i d 0 k + inject_Z z * wd c /\ (bc c <> WRAP -> z = 0%Z) }.
Record found_ok (t : state) : Prop := mkFound {
  fo_like : like_ps0 (t_found t);
  fo_wrapped : all_wrapped (t_found t);
  fo_lists : exists old, (forall it, some_lists (old it)) /\ (forall it, In it (fm_list fm) -> construct_lists fm e (t_found t) it (old it) = Some (t_lists t it));
  fo_some : forall it, some_lists (t_lists t it) }.

Lemma construct_ok now every last d t k :
  like_ps0 (t_found t) -> (forall it, some_lists (t_lists t it)) -> length (t_xs t) = length ps0 ->
  (forall i, (i < length ps0)%nat -> length (nth i (t_xs t) []) = length b) ->
  (forall i d c, (i < length ps0)%nat -> nth_error b d = Some c -> exists z : Z,
    nth d (nth i (t_xs t) []) 0 == nth d (px (nth i ps0 dp)) 0 + travel ms i d 0 k + inject_Z z * wd c /\ (bc c <> WRAP -> z = 0%Z)) ->
  exists t', construct s now every last d t = Some t' /\ t_c t' = mkC 0 every false last now d /\ where_ok k k t' /\ found_ok t'.
Proof.
  intros HLk HS HX HD HPL. unfold construct. cbn [s s_box s_fm s_env].
  destruct (wrap_all_ok b (t_xs t) axes) as (ys & E & F).
  { intros x Hx. destruct (In_nth _ _ [] Hx) as (i & Hi & <-). apply HD. lia. }
  rewrite E. assert (LY : length ys = length ps0) by (rewrite <- HX; symmetry; eapply Forall2_len; exact F).
  set (ps := map (fun q => place (fst q) (snd q)) (combine (t_found t) ys)).
  assert (FN : forall i, (i < length ps0)%nat -> wrapped b (nth i ys []) /\ same_point b (nth i ys []) (nth i (t_xs t) [])).
  { intros i Hi. rewrite <- HX in Hi. revert i Hi. clear - F. induction F as [|x y l r H F IH]; intros [|i] Hi; cbn [nth length] in *; try lia; [exact H|]. apply IH. lia. }
  assert (LP : length ps = length ps0) by (unfold ps; rewrite map_length, combine_length; destruct HLk as [A _]; lia).
  assert (PN : forall i, (i < length ps0)%nat -> nth i ps dp = place (nth i (t_found t) dp) (nth i ys [])).
  { intros i Hi. unfold ps. rewrite (nth_indep _ _ (place (fst (dp, @nil Q)) (snd (dp, @nil Q)))) by (fold ps; lia).
    rewrite (map_nth (fun q => place (fst q) (snd q)) (combine (t_found t) ys) (dp, [])). rewrite combine_nth by (destruct HLk; lia). reflexivity. }
  assert (LK : like_ps0 ps). { split; [exact LP|]. intros i Hi. rewrite (PN i Hi). cbn [place prd ptype]. apply HLk. exact Hi. }
  assert (LW : all_wrapped ps). { intros i Hi. rewrite (PN i Hi). cbn [place px]. apply FN. exact Hi. }
  assert (LM : forall it, exists L, construct_lists fm e ps it (t_lists t it) = Some L /\ some_lists L) by (intros it; apply lists_made; auto).
  assert (FB : forallb (fun it => match construct_lists fm e ps it (t_lists t it) with Some _ => true | None => false end) (fm_list fm) = true).
  { apply forallb_forall. intros it _. destruct (LM it) as (L & -> & _). reflexivity. }
  rewrite FB. eexists. split; [reflexivity|]. cbn [t_c]. split; [reflexivity|]. split.
  - constructor; cbn [t_xs t_found].
    + exact LY.
    + intros i Hi. destruct (FN i Hi) as (_ & (A & _)). exact A.
    + intros i d0 Hi Hd. rewrite (PN i Hi). cbn [place px]. rewrite travel_here. ring.
    + intros i d0 c Hi Hc. destruct (HPL i d0 c Hi Hc) as (z & Ez & Kz). destruct (FN i Hi) as (_ & (_ & _ & SP)). destruct (SP d0 c Hc) as (z' & Ez' & Kz').
      exists (z + z')%Z. split; [rewrite Ez', Ez, inject_Z_plus; ring|]. intros N. rewrite (Kz N), (Kz' N). reflexivity.
  - constructor; cbn [t_found t_lists].
    + exact LK.
    + exact LW.
    + exists (t_lists t). split; [exact HS|]. intros it _. destruct (LM it) as (L & EL & _). rewrite EL. reflexivity.
    + intros it. destruct (LM it) as (L & -> & HS'). exact HS'.
Qed.

Hypothesis HI : fm_list fm <> [].
Hypothesis HCL : steady_clock clock.
Hypothesis HD0 : (1#10000) <= maxdel.
Hypothesis HD1 : clock 1%nat <= maxdel.

(* The counters after k moves, of which a were made before the last search; the next search is due m steps after the last. *)
Record count_ok (a k m : nat) (c : counters) : Prop := mkCount {
  co_m : (1 <= m)%nat /\ c_every c = Z.of_nat m;
  co_steps : c_steps c = Z.of_nat (k - a);
  co_first : a = 0%nat -> k = 0%nat /\ m = 1%nat /\ c_requires c = false /\ c_delay c = mkD (1#10000) None /\ c_update c = 0;
  co_young : (0 < a)%nat -> (k - a < m)%nat /\ c_update c = clock (a - 1)%nat /\ clock (a - 1 + (m - 1))%nat - clock (a - 1)%nat <= maxdel /\
    d_cap (c_delay c) <= maxdel /\ (c_requires c = true -> (1 <= c_last c <= c_steps c)%Z) }.
Definition inv (k : nat) (t : state) : Prop := exists a m, (a <= k)%nat /\ where_ok a k t /\ found_ok t /\ count_ok a k m (t_c t).

Lemma moved_where a k t : (a <= k)%nat -> where_ok a k t -> where_ok a (S k) (mkSt (t_c t) (t_found t) (t_lists t) (move (t_xs t) (ms k))).
Proof.
  intros Ha [W1 W2 W3 W4]. destruct (HM k) as [M1 M2].
  assert (MN : forall i, (i < length ps0)%nat -> length (nth i (ms k) []) = length b) by (intros i Hi; apply M2, nth_In; lia).
  assert (NX : forall i d, (i < length ps0)%nat -> (d < length b)%nat -> nth d (nth i (move (t_xs t) (ms k)) []) 0 = nth d (nth i (t_xs t) []) 0 + nth d (nth i (ms k) []) 0).
  { intros i d Hi Hd. rewrite move_nth by lia. apply add_nth; rewrite (W2 i Hi); [apply MN; exact Hi|exact Hd]. }
  constructor; cbn [t_xs t_found].
  - rewrite move_length by lia. exact W1.
  - intros i Hi. rewrite move_nth by lia. rewrite map_length, combine_length, (W2 i Hi), (MN i Hi). lia.
  - intros i d Hi Hd. rewrite (NX i d Hi Hd), (W3 i d Hi Hd), travel_on by exact Ha. ring.
  - intros i d c Hi Hc. assert (Hd : (d < length b)%nat) by (apply nth_error_Some; congruence). destruct (W4 i d c Hi Hc) as (z & E & K). exists z. split; [|exact K].
    rewrite (NX i d Hi Hd), E, travel_on by lia. ring.
Qed.

Lemma not_later since d : later since d = false -> since <= d_cap d.
Proof. unfold later. intros H. apply orb_false_elim in H. destruct H as [H _]. destruct (Qltb_spec (d_cap d) since); [discriminate|lra]. Qed.
Lemma check_false sk' since mv : check_needs_remake tol fac sk' maxdel since mv = false -> since <= maxdel.
Proof. unfold check_needs_remake. intros H. apply orb_false_elim in H. destruct H as [H _]. destruct (Qltb_spec maxdel since); [discriminate|lra]. Qed.

Lemma start_ok every old : (forall it, some_lists (old it)) -> exists t, start s every ps0 old = Some t /\ inv 0 t.
Proof.
  intros HO. unfold start. cbn [s s_type]. change (2 =? 2)%Z with true. cbv iota.
  destruct HSP as (_ & _ & _ & _ & P). assert (PL : forall i, (i < length ps0)%nat -> length (px (nth i ps0 dp)) = length b) by (intros i Hi; apply P, nth_In; exact Hi).
  assert (NM : forall i, (i < length ps0)%nat -> nth i (map px ps0) [] = px (nth i ps0 dp)) by (intros i Hi; apply (map_nth px ps0 dp i)).
  edestruct (construct_ok 0 1 0 (mkD (1#10000) None) (mkSt (mkC 0 1 false 0 0 (mkD (1#10000) None)) ps0 old (map px ps0)) 0) as (t & E & C & W & F); cbn [t_found t_lists t_xs].
  - split; auto.
  - exact HO.
  - apply map_length.
  - intros i Hi. rewrite NM by exact Hi. auto.
  - intros i d c Hi _. rewrite NM by exact Hi. exists 0%Z. split; [cbn [travel]; unfold inject_Z; ring|auto].
  - exists t. split; [exact E|]. exists 0%nat, 1%nat. split; [lia|]. split; [exact W|]. split; [exact F|]. rewrite C. constructor; cbn [c_every c_steps c_requires c_delay c_update]; try lia; auto.
Qed.

Hypothesis HNE : ps0 <> [].

Lemma step_ok k t : inv k t -> exists t', step s (clock k) (ms k) false t = Some t' /\ inv (S k) t'.
Proof.
  intros (a & m & Ha & W & F & [[Hm1 Hm2] Hst Hf Hy]). assert (W' := moved_where a k t Ha W). unfold step.
  assert (NE : t_found t <> []). { destruct (fo_like t F) as [L _]. intros E. rewrite E in L. destruct ps0; [now apply HNE|discriminate]. }
  destruct (t_found t) as [|p0 pr] eqn:EF; [now elim NE|]. clear NE. rewrite <- EF in *. clear p0 pr EF.
  set (t1 := mkSt (t_c t) (t_found t) (t_lists t) (move (t_xs t) (ms k))) in *.
  cbn [s s_fm s_env s_tol s_fac s_maxdel s_type]. change (2 =? 0)%Z with false. change (2 =? 1)%Z with false. change (2 =? 2)%Z with true. cbn [andb orb].
  assert (IL : (0 <? length (fm_list fm))%nat = true) by (destruct (fm_list fm); [now elim HI|reflexivity]). rewrite IL. rewrite andb_true_r.
  set (since := clock k - c_update (t_c t)). set (mv := combine (map px (t_found t)) (move (t_xs t) (ms k))).
  set (rc := negb (c_requires (t_c t)) && later since (c_delay (t_c t))).
  set (ck := check_needs_remake tol fac (skin e) maxdel since mv). set (ex := c_requires (t_c t) || (rc && ck)).
  set (d := if rc then next_delay tol fac (skin e) maxdel since mv else c_delay (t_c t)).
  set (last := if ex && negb (c_requires (t_c t)) then (c_steps (t_c t) + 1)%Z else c_last (t_c t)).
  assert (Hd : d_cap d <= maxdel).
  { unfold d. destruct rc; [cbn; lra|]. destruct (Nat.eq_dec a 0) as [A0|A0]; [destruct (Hf A0) as (_ & _ & _ & -> & _); cbn; exact HD0|apply Hy; lia]. }
  destruct (Z.leb_spec (c_every (t_c t)) (c_steps (t_c t) + 1)) as [Due|NotDue].
  - (* searched again *)
    set (last' := if negb ex then (c_every (t_c t) + 1)%Z else last).
    destruct (construct_ok (clock k) last' last' d t1 (S k)) as (t' & E & C & Wt & Ft); cbn [t1 t_found t_lists t_xs].
    { apply (fo_like t F). } { apply (fo_some t F). } { apply (wo_len _ _ _ W'). } { apply (wo_dim _ _ _ W'). } { apply (wo_place _ _ _ W'). }
    exists t'. split; [exact E|].
    assert (NX : exists m', (1 <= m')%nat /\ last' = Z.of_nat m' /\ clock (k + (m' - 1))%nat - clock k <= maxdel).
    { destruct (Nat.eq_dec a 0) as [A0|A0].
      - destruct (Hf A0) as (K0 & M1 & R & D & U). exists 2%nat. split; [lia|].
        assert (EX : ex = false). { unfold ex, rc. rewrite R. cbn [negb andb orb]. unfold since. rewrite K0, U, D. unfold later. cbn [d_cap d_sqr].
          destruct HCL as (C0 & _). destruct (Qltb_spec (1#10000) (clock 0%nat - 0)) as [B|B]; [exfalso; lra|reflexivity]. }
        split; [unfold last'; rewrite EX; cbn [negb]; lia|]. rewrite K0. cbn [Nat.add Nat.sub]. destruct HCL as (C0 & _). lra.
      - destruct (Hy ltac:(lia)) as (Y1 & Y2 & Y3 & Y4 & Y5). assert (KM : k = (a - 1 + m)%nat) by lia.
        assert (SH : forall j, (j <= m - 1)%nat -> clock (k + j)%nat - clock k <= maxdel).
        { intros j Hj. assert (S1 := clock_shrink clock HCL m (a - 1) (a - 1 + j) ltac:(lia)). replace (a - 1 + j + m)%nat with (k + j)%nat in S1 by lia. replace (a - 1 + m)%nat with k in S1 by lia.
          assert (S2 := clock_mono clock HCL (a - 1 + j) (a - 1 + (m - 1)) ltac:(lia)). lra. }
        unfold last', last. destruct ex eqn:EX; cbn [negb andb].
        + destruct (c_requires (t_c t)) eqn:R; cbn [negb].
          * destruct (Y5 eq_refl) as [Y6 Y7]. exists (Z.to_nat (c_last (t_c t))). split; [lia|]. split; [lia|]. apply SH. lia.
          * exists m. split; [lia|]. split; [lia|]. apply SH. lia.
        + exists (S m). split; [lia|]. split; [lia|]. replace (S m - 1)%nat with m by lia.
          assert (SI : since <= maxdel).
          { unfold ex in EX. apply orb_false_elim in EX. destruct EX as [R EX]. unfold rc in EX. rewrite R in EX. cbn [negb andb] in EX.
            destruct (later since (c_delay (t_c t))) eqn:LT; cbn [andb] in EX; [exact (check_false _ _ _ EX)|apply not_later in LT; lra]. }
          unfold since in SI. rewrite Y2 in SI. assert (S1 := clock_shrink clock HCL m (a - 1) k ltac:(lia)). replace (a - 1 + m)%nat with k in S1 by lia. lra. }
    destruct NX as (m' & N1 & N2 & N3). exists (S k), m'. split; [lia|]. split; [exact Wt|]. split; [exact Ft|]. rewrite C.
    constructor; cbn [c_every c_steps c_requires c_delay c_update c_last]; try lia. intros _. replace (S k - 1)%nat with k by lia.
    split; [lia|]. split; [reflexivity|]. split; [exact N3|]. split; [exact Hd|]. discriminate.
  - (* not searched *)
    eexists. split; [reflexivity|]. destruct (Nat.eq_dec a 0) as [A0|A0]; [exfalso; destruct (Hf A0) as (K0 & M1 & _); lia|].
    destruct (Hy ltac:(lia)) as (Y1 & Y2 & Y3 & Y4 & Y5).
    exists a, m. split; [lia|]. split; [destruct W' as [V1 V2 V3 V4]; constructor; cbn [t_xs t_found] in *; assumption|].
    split; [destruct F as [F1 F2 F3 F4]; constructor; cbn [t_found t_lists]; assumption|].
    constructor; cbn [t_c c_every c_steps c_requires c_delay c_update c_last]; try lia.
    intros _. split; [lia|]. split; [exact Y2|]. split; [exact Y3|]. split; [exact Hd|]. intros EX. unfold last. rewrite EX. cbn [andb].
    destruct (c_requires (t_c t)) eqn:R; cbn [negb]; [destruct (Y5 eq_refl); lia|lia].
Qed.

Lemma run_ok every old k : (forall it, some_lists (old it)) -> exists t, run s every ps0 old clock ms (fun _ => false) k = Some t /\ inv k t.
Proof.
  intros HO. unfold run. destruct (start_ok every old HO) as (t0 & E & I0). rewrite E. induction k as [|k IH]; cbn [steps]; [exists t0; auto|].
  destruct IH as (t & Et & It). rewrite Et. apply step_ok. exact It.
Qed.

(* Young lists: at most maxdel old. *)
Lemma inv_young k t : inv k t -> exists a, (a <= k)%nat /\ where_ok a k t /\ found_ok t /\ clock k - clock a <= maxdel.
Proof.
  intros (a & m & Ha & W & F & [[Hm1 Hm2] Hst Hf Hy]). exists a. split; [exact Ha|]. split; [exact W|]. split; [exact F|].
  destruct (Nat.eq_dec a 0) as [A0|A0]; [destruct (Hf A0) as (K0 & _); subst; lra|]. destruct (Hy ltac:(lia)) as (Y1 & Y2 & Y3 & _).
  assert (S1 := clock_shrink clock HCL 1 (a - 1) (k - 1) ltac:(lia)). replace (k - 1 + 1)%nat with k in S1 by lia. replace (a - 1 + 1)%nat with a in S1 by lia.
  assert (S2 := clock_mono clock HCL (k - 1) (a - 1 + (m - 1)) ltac:(lia)). lra.
Qed.

Lemma found_nth ps i : like_ps0 ps -> option_map (fun q => (prd q, ptype q)) (nth_error ps i) = option_map (fun q => (prd q, ptype q)) (nth_error ps0 i).
Proof.
  intros (L & T). destruct (Nat.lt_ge_cases i (length ps0)) as [Hi|Hi].
  - rewrite (nth_error_nth' ps dp) by lia. rewrite (nth_error_nth' ps0 dp) by lia. cbn. destruct (T i Hi) as [-> ->]. reflexivity.
  - rewrite !(proj2 (nth_error_None _ _)) by lia. reflexivity.
Qed.
Lemma same_env ps xs v im om p w : like_ps0 ps -> force_env b ps xs v im om p w = force_env b ps0 xs v im om p w.
Proof.
  intros HL. unfold force_env. f_equal. apply FunctionalExtensionality.functional_extensionality. intros i. assert (H := found_nth ps i HL).
  destruct (nth_error ps i), (nth_error ps0 i); cbn in H; try discriminate; [|reflexivity]. injection H as -> _. reflexivity.
Qed.
Lemma same_between ps i j : like_ps0 ps -> between fm ps i j = between fm ps0 i j.
Proof.
  intros HL. unfold between. assert (H1 := found_nth ps i HL). assert (H2 := found_nth ps j HL).
  destruct (nth_error ps i), (nth_error ps0 i); cbn in H1; try discriminate; [|reflexivity].
  destruct (nth_error ps j), (nth_error ps0 j); cbn in H2; try discriminate; [|reflexivity]. injection H1 as _ ->. injection H2 as _ ->. reflexivity.
Qed.
Lemma sweep_lists fe l1 l2 : forall l st, (forall it, In it l -> l1 it = l2 it) -> sweep its fe l1 l st = sweep its fe l2 l st.
Proof.
  induction l as [|it l IH]; intros st H; [reflexivity|]. cbn [sweep]. rewrite (H it (or_introl eq_refl)). destruct (interact_one _ _ _ _); [|reflexivity].
  rewrite IH by (intros; apply H; now right). reflexivity.
Qed.

Lemma max_motion_le sk' B : forall mv, 0 <= B -> (forall m, In m mv -> dist2 (fst m) (snd m) <= B) -> find_max_motion_sqr sk' mv <= B.
Proof.
  intros mv HB H. unfold find_max_motion_sqr. assert (G : forall acc, acc <= B -> fold_left (fun maxD p => let dsqr := dist2 (fst p) (snd p) in
      if Qltb dsqr (Qsqr (10 * sk')) && Qltb maxD dsqr then dsqr else maxD) mv acc <= B); [|apply G; exact HB].
  induction mv as [|m mv IH]; intros acc Hacc; [exact Hacc|]. cbn [fold_left]. cbv zeta. apply IH; [intros; apply H; now right|]. destruct (_ && _); [apply H; now left|exact Hacc].
Qed.

Lemma moved_by a k t : where_ok a k t -> found_ok t -> (forall i, (i < length ps0)%nat -> sqr_length (length b) (fun d => travel ms i d a k) <= Qsqr ((1#2) * sk)) ->
  moved_on b sk 1 1 1 0 (t_found t) (t_xs t).
Proof.
  intros W F SL. destruct HSP as (_ & _ & _ & SK & _). change (skin e) with sk in SK.
  destruct (fo_like t F) as [LF _]. destruct W as [W1 W2 W3 _].
  assert (BD : forall m, In m (combine (map px (t_found t)) (t_xs t)) -> dist2 (fst m) (snd m) <= Qsqr ((1#2) * sk)).
  { intros m Hm. destruct (In_nth _ _ ([], []) Hm) as (i & Hi & E). rewrite combine_length, map_length in Hi. rewrite combine_nth in E by (rewrite map_length; lia).
    rewrite <- E. cbn [fst snd]. assert (Li : (i < length ps0)%nat) by lia. change (@nil Q) with (px dp) at 1. rewrite map_nth.
    assert (WV := fo_wrapped t F i Li). assert (LW : length (px (nth i (t_found t) dp)) = length b) by (symmetry; eapply Forall2_len; exact WV).
    rewrite (dist2_length (length b)) by (auto).
    rewrite (sqr_length_ext (length b) _ (fun d => - travel ms i d a k)) by (intros d Hd; rewrite (W3 i d Li Hd); ring).
    assert (NG : forall n0 x, sqr_length n0 (fun d => - x d) == sqr_length n0 x) by (intros n0 x; induction n0 as [|n0 IH]; cbn [sqr_length]; [reflexivity|rewrite IH; unfold Qsqr; ring]).
    rewrite NG. exact (SL i Li). }
  split; [lia|]. split. { intros x Hx. destruct (In_nth _ _ [] Hx) as (i & Hi & <-). apply W2. lia. } split; [split; lra|]. split.
  - unfold check_needs_remake. destruct (Qltb_spec 1 0) as [B|_]; [exfalso; lra|]. cbn [orb]. destruct (Qltb_spec (Qsqr (1 * 1 * sk)) (4 * find_max_motion_sqr sk (combine (map px (t_found t)) (t_xs t)))) as [B|_]; [|reflexivity].
    exfalso. assert (M := max_motion_le sk (Qsqr ((1#2) * sk)) _ (Qsq_nonneg _) BD). unfold Qsqr in *. lra.
  - intros m Hm. specialize (BD m Hm). unfold Qsqr in *. assert (0 < sk * sk) by (apply Qmult_lt_0_compat; exact SK). lra.
Qed.

Lemma moved k t : inv k t -> slow (length b) (length ps0) clock ms maxdel ((1#2) * sk) -> moved_on b sk 1 1 1 0 (t_found t) (t_xs t).
Proof.
  intros IV SL. destruct (inv_young k t IV) as (a & Ha & W & F & Y). apply (moved_by a k t W F). intros i Hi. exact (SL a k i Ha Y Hi).
Qed.

Lemma forces_from t v im om p w : found_ok t -> moved_on b sk 1 1 1 0 (t_found t) (t_xs t) ->
  let fe := force_env b ps0 (t_xs t) v im om p w in apart fm ps0 fe ->
  exists st us, sweep its fe (t_lists t) (fm_list fm) cleared = Some (st, us) /\
    (forall a d, (a < length ps0)%nat -> Model_Forces.F st a d = Spec_Forces.sum_to (length ps0) (fun j => if (j =? a)%nat then 0%R else alone_force its fm ps0 fe d a j)) /\
    total_potential us = Spec_Forces.sum_to (length ps0) (fun j => Spec_Forces.sum_to j (fun i => alone_energy its fm ps0 fe i j)).
Proof.
  intros F MO fe AP.
  assert (HL := fo_like t F). destruct (fo_lists t F) as (old & HO & HLs).
  assert (IS : interactions_set its n ss fm) by (split; [exact HV|]; split; [exact HR|]; split; [exact HC|]; exists fm0; auto).
  assert (SE := searched (t_found t) HL (fo_wrapped t F)).
  assert (EE := same_env (t_found t) (t_xs t) v im om p w HL).
  assert (AP' : apart fm (t_found t) (force_env b (t_found t) (t_xs t) v im om p w)).
  { rewrite EE. intros i j it N B. rewrite (same_between _ i j HL) in B. exact (AP i j it N B). }
  destruct (C131_forces_of_all_pairs_partial b its n ss fm sk mss gs (t_found t) (t_xs t) v im om p w 1 1 1 0 old IS SE MO AP' HO) as (lists & st & us & A & B & C & D).
  exists st, us. split.
  - unfold fe. rewrite <- EE. rewrite (sweep_lists _ (t_lists t) lists); [exact B|]. intros it Hit. specialize (A it Hit). specialize (HLs it Hit). fold e in A. rewrite HLs in A. injection A as A. exact A.
  - destruct HL as [LL LT]. assert (HL : like_ps0 (t_found t)) by (split; assumption). rewrite LL in C, D. rewrite EE in C, D. fold fe in C, D.
    assert (AF : forall d i j, alone_force its fm (t_found t) fe d i j = alone_force its fm ps0 fe d i j) by (intros; unfold alone_force; rewrite (same_between _ _ _ HL); reflexivity).
    assert (AE : forall i j, alone_energy its fm (t_found t) fe i j = alone_energy its fm ps0 fe i j) by (intros; unfold alone_energy; rewrite (same_between _ _ _ HL); reflexivity).
    assert (ST : forall m0 (g h : nat -> R), (forall j, g j = h j) -> Spec_Forces.sum_to m0 g = Spec_Forces.sum_to m0 h).
    { clear. induction m0 as [|m0 IH]; intros g h H; cbn; [reflexivity|]. rewrite (IH g h) by exact H. rewrite H. reflexivity. }
    split.
    + intros i d Hi. rewrite (C i d Hi). apply ST. intros j. rewrite AF. reflexivity.
    + rewrite D. apply ST. intros j. apply ST. intros i. apply AE.
Qed.
Lemma forces_ok k t v im om p w : inv k t -> slow (length b) (length ps0) clock ms maxdel ((1#2) * sk) ->
  let fe := force_env b ps0 (t_xs t) v im om p w in apart fm ps0 fe ->
  exists st us, sweep its fe (t_lists t) (fm_list fm) cleared = Some (st, us) /\
    (forall a d, (a < length ps0)%nat -> Model_Forces.F st a d = Spec_Forces.sum_to (length ps0) (fun j => if (j =? a)%nat then 0%R else alone_force its fm ps0 fe d a j)) /\
    total_potential us = Spec_Forces.sum_to (length ps0) (fun j => Spec_Forces.sum_to j (fun i => alone_energy its fm ps0 fe i j)).
Proof.
  intros IV SL. assert (MO := moved k t IV SL). destruct IV as (a & m & _ & _ & F & _). exact (forces_from t v im om p w F MO).
Qed.
End RUN.
