(* C18-C21: cell grid and neighbour search. *)
From Verif Require Import Lib Model_Geometry Model_Cells Spec_Cells Proofs_Geometry Proofs_Cells1 Proofs_Cells2
  Proofs_Cells3 Proofs_Cells4 Proofs_Cells5 Proofs_Cells6.
From Coq Require Import ZifyBool.
Local Open Scope Q_scope.

(* ------------------------------------------------------------------ C18 *)
(* index -> tuple -> index and tuple -> index -> tuple, and the index stays below the number of cells *)
Theorem C18_index_of_tuple (dims t : list Z) : tuple_valid dims t ->
  (0 <= tuple_to_linear dims t < prodZ dims)%Z /\ getAddressCM (tuple_to_linear dims t) dims = t.
Proof. intros H. split; [now apply linear_bound|now apply address_of_linear]. Qed.
Print Assumptions C18_index_of_tuple.

Theorem C18_tuple_of_index (dims : list Z) (l : Z) : Forall (fun d => 0 < d)%Z dims -> (0 <= l < prodZ dims)%Z ->
  tuple_valid dims (getAddressCM l dims) /\ tuple_to_linear dims (getAddressCM l dims) = l.
Proof. intros Hd Hl. now apply linear_of_address. Qed.
Print Assumptions C18_tuple_of_index.

Theorem C18_index_injective (dims t t' : list Z) : tuple_valid dims t -> tuple_valid dims t' ->
  tuple_to_linear dims t = tuple_to_linear dims t' -> t = t'.
Proof. apply linear_injective. Qed.
Print Assumptions C18_index_injective.

(* the row-major variant getAddress is a bijection too: it enumerates the same tuples, first axis fastest *)
Theorem C18_row_major (dims : list Z) (l : Z) : Forall (fun d => 0 < d)%Z dims -> (0 <= l < prodZ dims)%Z ->
  tuple_valid dims (getAddress l dims) /\ tuple_to_linear (rev dims) (rev (getAddress l dims)) = l.
Proof.
  intros Hd Hl. unfold getAddress. rewrite getAddress_rev_eq, rev_involutive.
  assert (Hr : Forall (fun d => 0 < d)%Z (rev dims)) by now apply Forall_rev.
  assert (Hp : prodZ (rev dims) = prodZ dims).
  { clear. induction dims as [|d ds IH]; [reflexivity|]. simpl.
    assert (G : forall a b, prodZ (a ++ b) = (prodZ a * prodZ b)%Z).
    { clear. induction a as [|x a IH]; intros b; simpl; [lia|]. rewrite IH. lia. }
    rewrite G, IH. simpl. lia. }
  destruct (linear_of_address (rev dims) Hr l) as [R E]; [now rewrite Hp|].
  split; [|exact E]. apply in_range_rev in R. now rewrite rev_involutive in R.
Qed.
Print Assumptions C18_row_major.

Example C18_case : tuple_valid [3;4;5]%Z [2;0;4]%Z /\ tuple_to_linear [3;4;5]%Z [2;0;4]%Z = 44%Z /\
  getAddressCM 44 [3;4;5]%Z = [2;0;4]%Z /\ getAddress 44 [3;4;5]%Z = [2;2;3]%Z.
Proof. split; [repeat constructor; lia|vm_compute; repeat split]. Qed.

(* ------------------------------------------------------------------ C19 *)
(* the set-up always succeeds when the box holds at least one cell per axis, and makes >= 4 cells per axis *)
Theorem C19_setup_succeeds (c : Q) (b : box) : 0 < c -> Forall (fun a => c <= wd a) b ->
  exists gs, cell_dimensions c (map box_paxis b) = Some gs /\ length gs = length b /\
    Forall2 (fun a g => gmin g = lo a /\ gmax g = hi a /\ (4 <= gdim g)%Z /\ gw g * inject_Z (gdim g) == wd a) b gs.
Proof.
  intros Hc Hb. destruct (cell_dims_facts c b Hc Hb) as (gs & E & F). exists gs.
  split; [exact E|]. split; [eapply facts_length; exact F|].
  clear E. induction F as [|a g b gs Fa F IH]; constructor; auto.
  - destruct Fa; auto.
  - apply IH. now inversion Hb.
Qed.
Print Assumptions C19_setup_succeeds.

(* every position, inside the bounds or not, gets a valid cell; a position inside gets the cell holding it *)
Theorem C19_every_position_has_a_cell (c : Q) (b : box) (gs : list gaxis) (x : list Q) :
  0 < c -> Forall (fun a => c <= wd a) b -> cell_dimensions c (map box_paxis b) = Some gs ->
  length x = length b ->
  (0 <= get_cell_index gs x < prodZ (dims_of gs))%Z /\
  tuple_valid (dims_of gs) (getAddressCM (get_cell_index gs x) (dims_of gs)) /\
  (inside b x ->
    Forall2 (fun g p => gmin g + inject_Z (fst p) * gw g <= snd p < gmin g + (inject_Z (fst p) + 1) * gw g) gs
      (combine (getAddressCM (get_cell_index gs x) (dims_of gs)) x)).
Proof.
  intros Hc Hb E Hl. destruct (cell_dims_facts c b Hc Hb) as (gs' & E' & F).
  rewrite E in E'. injection E' as <-. clear E.
  assert (R : in_range (dims_of gs) (cell_tuple gs x)).
  { clear Hb. revert x Hl. induction F as [|a g b gs Fa F IH]; intros [|x0 x] Hl; try discriminate; [constructor|].
    constructor; [apply cell_index1_spec; destruct Fa; assumption|]. apply IH. simpl in Hl. lia. }
  unfold get_cell_index. rewrite address_of_linear by exact R.
  split; [now apply linear_bound|]. split; [exact R|].
  intros Hin. clear R Hb. revert x Hl Hin.
  induction F as [|a g b gs Fa F IH]; intros x Hl Hin; inversion Hin as [|? x0 ? x' Hx0 Hx']; subst; [constructor|].
  change (cell_tuple (g :: gs) (x0 :: x')) with (cell_index1 g x0 :: cell_tuple gs x').
  cbn [combine]. constructor; [|apply IH; auto; simpl in Hl; lia]. cbn [fst snd].
  destruct Fa as [E1 E2 E3 Hp H4 Hw Hwp Hhi Hlo Hlo4].
  assert (Hmax : gmax g == gmin g + inject_Z (gdim g) * gw g) by (rewrite E1, E2; unfold wd in Hw; lra).
  destruct (cell_index1_spec g x0 Hp) as (Hr & H1 & H2).
  assert (En : ncoord g x0 * gw g == x0 - gmin g) by (unfold ncoord; field; lra).
  rewrite <- E1, <- E2 in Hx0. set (k := cell_index1 g x0) in *. set (n := ncoord g x0) in *.
  assert (Hd1 : inject_Z (gdim g - 1) == inject_Z (gdim g) - 1).
  { unfold Z.sub. rewrite inject_Z_plus. reflexivity. }
  assert (Hn0 : 0 <= n) by nra.
  set (D := inject_Z (gdim g)) in *. assert (HnD : n < D) by nra.
  split.
  - destruct H1 as [->|H1]; [change (inject_Z 0) with 0; lra|]. set (K := inject_Z k) in *. nra.
  - destruct H2 as [->|H2]; [rewrite Hd1; nra|]. set (K := inject_Z k) in *. nra.
Qed.
Print Assumptions C19_every_position_has_a_cell.

Example C19_case : exists gs,
  cell_dimensions (3#2) (map box_paxis [mkAxis 0 10 WRAP; mkAxis (-1) 4 OPEN]) = Some gs /\
  dims_of gs = [6; 4]%Z /\ get_cell_index gs [7; 0] = 16%Z /\ get_cell_index gs [25; -9] = 20%Z.
Proof. eexists. vm_compute. repeat split. Qed.

(* ------------------------------------------------------------------ C20 / C21 set-up *)
Lemma built_good b e : search_built b e -> box_large_enough (min_small_cutoff e) b ->
  stencil_range (min_small_cutoff e) b ->
  goodenv e /\ box_of (grid e) = b /\ (forall x, wrapped b x -> wrapped_g (grid e) x) /\
  (forall x, inside b x -> inside_g (grid e) x) /\
  (forall g, In g (grid e) -> gbc g = WRAP -> (2 <= gdim g)%Z).
Proof.
  intros (E & Hw & Hc) Hb Hst.
  assert (Hb1 : Forall (fun a => min_small_cutoff e <= wd a) b) by (eapply Forall_impl; [|exact Hb]; intros a [H _]; exact H).
  destruct (cell_dims_facts _ b Hc Hb1) as (gs & E' & F). rewrite E in E'. injection E' as E'. rewrite <- E' in F.
  split; [|split; [|split; [|split]]].
  - unfold goodenv. split; [eapply facts_good_grid; eauto|]. split; [eapply facts_keep; eauto|].
    split; [exact Hc|]. intros g Hg _. exists (gmax g - gmin g). split; [|reflexivity].
    rewrite Hw, <- (facts_sim_wd _ _ _ F). now apply (in_map (fun g => gmax g - gmin g)).
  - eapply facts_box; exact F.
  - eapply facts_wrapped; exact F.
  - clear - F. induction F as [|a g b gs Fa F IH]; intros x Hx; inversion Hx; subst; constructor.
    + destruct Fa as [E1 E2 _ _ _ _ _ _ _ _]. rewrite E1, E2. assumption.
    + now apply IH.
  - intros g Hg _. pose proof (facts_dim2 _ _ _ F g Hg). lia.
Qed.

Lemma fit_ok b e ps : (forall x, inside b x -> inside_g (grid e) x) -> 0 <= skin e ->
  (forall p, In p ps -> 0 <= prd p) -> (forall t, 0 <= max_cutoff e t) -> 0 < min_small_cutoff e ->
  large_fit b e ps -> large_ok e ps.
Proof.
  intros Hin Hs Hr Hm Hc H p Hp HL. unfold is_large in HL.
  destruct (Qltb_spec (max_small_sigma e) (sigma e p)) as [Hlt|]; [|discriminate].
  destruct (H p Hp Hlt) as [H1 H2]. split; [auto|]. split; [exact H2|].
  unfold reach. unfold min_small_cutoff in Hc. lra.
Qed.

Lemma different_distinct e ps : large_different e ps -> large_distinct e ps.
Proof.
  intros H i j pi pj Hij Hi Hj Hli Hlj. unfold is_large in *.
  destruct (Qltb_spec (max_small_sigma e) (sigma e pi)) as [H1|]; [|discriminate].
  destruct (Qltb_spec (max_small_sigma e) (sigma e pj)) as [H2|]; [|discriminate].
  eapply H; eauto.
Qed.

(* C20. With interaction cutoffs at most the contact distance (factor <= 1), every pair of live, interacting
   particles whose minimum-image distance is below the cutoff plus skin is visited by the search. *)
Theorem C20_no_pair_is_missed_partial (b : box) (e : env) (ps : list particle) :
  search_built b e -> box_large_enough (min_small_cutoff e) b -> stencil_range (min_small_cutoff e) b ->
  0 <= skin e -> (forall p, In p ps -> 0 <= prd p /\ wrapped b (px p)) ->
  (forall t t', cutoff_grid e t t' = cutoff_grid e t' t /\ 0 <= cutoff_grid e t t' <= 1) ->
  (forall t, 1 <= max_cutoff e t) -> large_fit b e ps ->
  exists vs, traversePairs e ps = Some vs /\
    forall i j pi pj, i <> j -> nth_error ps i = Some pi -> nth_error ps j = Some pj ->
      (0 <= ptype pi)%Z -> (0 <= ptype pj)%Z ->
      interacts e (ptype pi) = true -> interacts e (ptype pj) = true ->
      getDistanceSqr b (px pi) (px pj) <
        Qsqr ((prd pi + prd pj) * cutoff_grid e (ptype pi) (ptype pj) + skin e) ->
      visited vs i j.
Proof.
  intros Hbuilt Hlarge Hst Hskin Hps Hcut Hmc Hfit.
  destruct (built_good b e Hbuilt Hlarge Hst) as (Hgood & Hbox & Hwr & Hins & Hdim).
  exists (flat_map (fun l => visit_cell e ps (cell_adj e l) (cell_ids e ps l)) (zrange (prodZ (dims_of (grid e))))).
  split; [now apply traverse_total|].
  intros i j pi pj Hij Hi Hj Hti Htj Hii Hjj Hd.
  destruct (Hps pi (nth_error_In _ _ Hi)) as [Hri Hwi]. destruct (Hps pj (nth_error_In _ _ Hj)) as [Hrj Hwj].
  destruct (Hcut (ptype pi) (ptype pj)) as [Hsym Hc01].
  eapply (traversal_complete_all e ps _ i j pi pj); eauto.
  - now apply traverse_total.
  - eapply fit_ok; eauto; [intros p Hp; now apply Hps|intros t; specialize (Hmc t); lra|apply Hbuilt].
  - rewrite Hbox. exact Hd.
Qed.
Print Assumptions C20_no_pair_is_missed_partial.

(* Range query: getAllWithin returns exactly the live interacting particles (other than the excluded one)
   closer than the distance, each once, provided non-periodic axes are long compared with the distance. *)
Theorem C20_range_query_partial (b : box) (e : env) (ps : list particle) (excl : option nat) (x : list Q) (d : Q) :
  search_built b e -> box_large_enough (min_small_cutoff e) b -> stencil_range (min_small_cutoff e) b ->
  0 < d -> inside b x -> (forall p, In p ps -> wrapped b (px p)) -> Forall (long_axis d) (grid e) ->
  NoDup (getAllWithin e b ps excl x d) /\
  forall i, In i (getAllWithin e b ps excl x d) <->
    exists p, nth_error ps i = Some p /\ (0 <= ptype p)%Z /\ interacts e (ptype p) = true /\ excl <> Some i /\
      getDistanceSqr b x (px p) < Qsqr d.
Proof.
  intros Hbuilt Hlarge Hst Hd Hx Hps Hlong.
  destruct (built_good b e Hbuilt Hlarge Hst) as (Hgood & Hbox & Hwr & Hins & Hdim).
  pose proof (good_reg _ _ (proj1 Hgood)) as Hreg.
  split; [apply getAllWithin_nodup; auto|]. intros i. apply getAllWithin_spec; auto.
Qed.
Print Assumptions C20_range_query_partial.

(* C21. No unordered pair is visited twice, no particle is paired with itself, and only live interacting
   particles are paired. *)
Theorem C21_no_pair_twice_partial (b : box) (e : env) (ps : list particle) (vs : list visit) :
  search_built b e -> box_large_enough (min_small_cutoff e) b -> stencil_range (min_small_cutoff e) b ->
  0 <= skin e -> (forall p, In p ps -> 0 <= prd p) -> (forall t, 0 <= max_cutoff e t) ->
  large_fit b e ps -> large_different e ps ->
  traversePairs e ps = Some vs ->
  NoDup (map upair vs) /\
  forall i j w, In (i, j, w) vs -> i <> j /\
    exists pi pj, nth_error ps i = Some pi /\ nth_error ps j = Some pj /\ (0 <= ptype pi)%Z /\ (0 <= ptype pj)%Z /\
      interacts e (ptype pi) = true /\ interacts e (ptype pj) = true.
Proof.
  intros Hbuilt Hlarge Hst Hskin Hps Hmc Hfit Hdiff Hvs.
  destruct (built_good b e Hbuilt Hlarge Hst) as (Hgood & Hbox & Hwr & Hins & Hdim).
  split.
  - eapply traversal_nodup_all; eauto; [|now apply different_distinct].
    eapply fit_ok; eauto. apply Hbuilt.
  - intros i j w Hin. split; [eapply traversal_no_self_all; eauto|]. eapply visited_live; eauto.
Qed.
Print Assumptions C21_no_pair_twice_partial.

(* ------------------------------------------------------------------ a concrete system *)
Definition grid_for (c : Q) (p : list paxis) : list gaxis :=
  match cell_dimensions c p with Some g => g | None => [] end.
Definition mk_env (cut mc mss sk : Q) (p : list paxis) : env :=
  mkEnv (fun _ _ => cut) (fun _ => mc) (fun _ => true) sk mss (grid_for (2 * mss + sk) p)
    (map (fun a => pmax a - pmin a) p).
Definition P (x : list Q) (r : Q) : particle := mkPart x r 0.

Definition ex_box : box := [mkAxis 0 20 WRAP; mkAxis 0 30 OPEN].
Definition ex_env : env := mk_env 1 1 (1#2) (1#10) (map box_paxis ex_box).
(* three small particles (one pair across the periodic border, one off the box in the open direction) and a
   large one *)
Definition ex_ps : list particle :=
  [P [1#4; 5] (2#5); P [79#4; 5] (2#5); P [1; 11#2] (1#2); P [10; 12] 3; P [10; 15] (2#5); P [1;-1] (1#4)].

Example C20_C21_hypotheses_met :
  search_built ex_box ex_env /\ box_large_enough (min_small_cutoff ex_env) ex_box /\
  stencil_range (min_small_cutoff ex_env) ex_box /\ 0 <= skin ex_env /\
  (forall p, In p ex_ps -> 0 <= prd p /\ wrapped ex_box (px p)) /\
  (forall t t', cutoff_grid ex_env t t' = cutoff_grid ex_env t' t /\ 0 <= cutoff_grid ex_env t t' <= 1) /\
  (forall t, 1 <= max_cutoff ex_env t) /\ large_fit ex_box ex_env ex_ps /\ large_different ex_env ex_ps /\
  traversePairs ex_env ex_ps = Some [(0, 2, 0%Z); (0, 1, 1%Z); (2, 1, 1%Z); (3, 4, 0%Z)]%nat.
Proof.
  split; [split; [vm_compute; reflexivity|split; [reflexivity|vm_compute; reflexivity]]|].
  split; [repeat constructor; vm_compute; try discriminate; intros; discriminate|].
  split. { left. split; [repeat constructor; vm_compute; discriminate|]. left. vm_compute. reflexivity. }
  split; [vm_compute; discriminate|].
  split. { intros p Hp. repeat (destruct Hp as [<-|Hp]; [split; [vm_compute; discriminate|
     repeat constructor; intros; try discriminate; split; vm_compute; discriminate]|]). destruct Hp. }
  split; [intros; split; [reflexivity|split; vm_compute; discriminate]|].
  split; [intros; vm_compute; discriminate|].
  split. { intros p Hp Hlt. repeat (destruct Hp as [<-|Hp]; [try (exfalso; revert Hlt; vm_compute; discriminate)|]).
    - split; [repeat constructor; vm_compute; try discriminate; reflexivity|].
      repeat constructor; intros HW; vm_compute; try discriminate; exfalso; apply HW; reflexivity.
    - destruct Hp. }
  split. { intros i j pi pj Hij Hi Hj Hli Hlj. exfalso. apply Hij.
    assert (Hk : forall k pk, nth_error ex_ps k = Some pk -> max_small_sigma ex_env < sigma ex_env pk -> k = 3%nat).
    { intros k pk Hk Hlt. do 6 (destruct k as [|k]; [injection Hk as <-; first [reflexivity|exfalso; revert Hlt; vm_compute; discriminate]|]).
      destruct k; discriminate. }
    rewrite (Hk i pi Hi Hli), (Hk j pj Hj Hlj). reflexivity. }
  vm_compute. reflexivity.
Qed.

(* ------------------------------------------------------------------ where C20 / C21 fail *)
Ltac qc := vm_compute; first [reflexivity | discriminate | (split; discriminate) | idtac].

(* Cutoff factors above 1 (Lennard-Jones uses 2.5): the same-cell test multiplies only one radius by the
   cutoff, so close pairs in the same cell are missed. *)
Theorem C20_long_range_cutoff_refuted :
  exists (b : box) (e : env) (ps : list particle) pi pj,
    search_built b e /\ box_large_enough (min_small_cutoff e) b /\ stencil_range (min_small_cutoff e) b /\
    cutoff_grid e 0 0 = 5#2 /\ max_cutoff e 0 = 5#2 /\ nth_error ps 0 = Some pi /\ nth_error ps 1 = Some pj /\
    getDistanceSqr b (px pi) (px pj) < Qsqr ((prd pi + prd pj) * cutoff_grid e 0 0) /\
    exists vs, traversePairs e ps = Some vs /\ ~ visited vs 0 1.
Proof.
  exists [mkAxis 0 40 OPEN; mkAxis 0 40 OPEN],
    (mk_env (5#2) (5#2) (41#16) (1#2) (map box_paxis [mkAxis 0 40 OPEN; mkAxis 0 40 OPEN])),
    [P [1;1] 1; P [11#2;1] 1], (P [1;1] 1), (P [11#2;1] 1).
  split; [split; [qc|split; qc]|]. split; [repeat constructor; qc; intros; discriminate|].
  split. { left. split; [repeat constructor; qc|]. right. qc. }
  split; [reflexivity|]. split; [reflexivity|]. split; [reflexivity|]. split; [reflexivity|]. split; [qc|].
  eexists. split; [vm_compute; reflexivity|]. intros (w & [[]|[]]).
Qed.
Print Assumptions C20_long_range_cutoff_refuted.

(* Three dimensions, cell size 1: the stencil filter drops needed neighbours; the pair is missed and every
   particle is paired with itself instead. *)
Theorem C20_C21_stencil_filter_refuted :
  exists (b : box) (e : env) (ps : list particle) pi pj,
    search_built b e /\ box_large_enough (min_small_cutoff e) b /\
    cutoff_grid e 0 0 = 1 /\ max_cutoff e 0 = 1 /\ nth_error ps 0 = Some pi /\ nth_error ps 1 = Some pj /\
    getDistanceSqr b (px pi) (px pj) < Qsqr ((prd pi + prd pj) * cutoff_grid e 0 0) /\
    exists vs, traversePairs e ps = Some vs /\ ~ visited vs 0 1 /\ In (0%nat, 0%nat, 0%Z) vs.
Proof.
  pose (b := [mkAxis 0 4 WRAP; mkAxis 0 (24#5) WRAP; mkAxis 0 (24#5) WRAP]).
  exists b, (mk_env 1 1 (9#20) (1#10) (map box_paxis b)),
    [P [11#10;11#10;11#10] (9#20); P [9#10;13#10;13#10] (9#20)],
    (P [11#10;11#10;11#10] (9#20)), (P [9#10;13#10;13#10] (9#20)).
  split; [split; [qc|split; qc]|]. split; [repeat constructor; qc; intros; discriminate|].
  split; [reflexivity|]. split; [reflexivity|]. split; [reflexivity|]. split; [reflexivity|]. split; [qc|].
  eexists. split; [vm_compute; reflexivity|]. split.
  - intros (w & [[H|[H|[]]]|[H|[H|[]]]]); discriminate.
  - right. now left.
Qed.
Print Assumptions C20_C21_stencil_filter_refuted.

(* Periodic box with fewer than four cells per axis: the grid is forced to four cells, and pairs are visited
   in both directions (their force is doubled). *)
Theorem C21_small_periodic_box_refuted :
  exists (b : box) (e : env) (ps : list particle) vs,
    search_built b e /\ Forall (fun a => min_small_cutoff e <= wd a) b /\ stencil_range (min_small_cutoff e) b /\
    traversePairs e ps = Some vs /\ vs = [(0, 1, 0%Z); (1, 0, 0%Z)]%nat.
Proof.
  pose (b := [mkAxis 0 (3#10) WRAP; mkAxis 0 (3#10) WRAP]).
  exists b, (mk_env 1 1 (9#200) (1#100) (map box_paxis b)), [P [7#100;1#10] (9#200); P [31#200;1#10] (9#200)].
  eexists. split; [split; [qc|split; qc]|]. split; [repeat constructor; qc|].
  split. { right. left. qc. }
  split; [vm_compute; reflexivity|reflexivity].
Qed.
Print Assumptions C21_small_periodic_box_refuted.

(* Two large particles of the same radius visit each other. *)
Theorem C21_equal_large_particles_refuted :
  exists (b : box) (e : env) (ps : list particle) vs,
    search_built b e /\ box_large_enough (min_small_cutoff e) b /\ stencil_range (min_small_cutoff e) b /\
    large_fit b e ps /\
    traversePairs e ps = Some vs /\ vs = [(0, 1, 0%Z); (1, 0, 0%Z)]%nat.
Proof.
  pose (b := [mkAxis 0 10 OPEN; mkAxis 0 10 OPEN]).
  exists b, (mk_env 1 1 (9#20) (1#10) (map box_paxis b)), [P [5;5] 1; P [6;5] 1].
  eexists. split; [split; [qc|split; qc]|]. split; [repeat constructor; qc; intros; discriminate|].
  split. { left. split; [repeat constructor; qc|]. left. qc. }
  split. { intros p Hp _. repeat (destruct Hp as [<-|Hp]; [split; [repeat constructor; qc|
     repeat constructor; intros HW; vm_compute; discriminate]|]). destruct Hp. }
  split; [vm_compute; reflexivity|reflexivity].
Qed.
Print Assumptions C21_equal_large_particles_refuted.

(* A large particle near a non-periodic border: the capped search window is centred on it, so half of it
   falls outside and reachable cells on the other side are never searched. The same holds for range
   queries. *)
Theorem C20_large_near_border_refuted :
  exists (b : box) (e : env) (ps : list particle) pi pj,
    search_built b e /\ box_large_enough (min_small_cutoff e) b /\ stencil_range (min_small_cutoff e) b /\
    cutoff_grid e 0 0 = 1 /\ max_cutoff e 0 = 1 /\ nth_error ps 0 = Some pi /\ nth_error ps 1 = Some pj /\
    inside b (px pi) /\ inside b (px pj) /\
    getDistanceSqr b (px pi) (px pj) < Qsqr ((prd pi + prd pj) * cutoff_grid e 0 0) /\
    (exists vs, traversePairs e ps = Some vs /\ ~ visited vs 0 1) /\
    getDistanceSqr b (px pi) (px pj) < Qsqr 6 /\ getAllWithin e b ps None (px pi) 6 = [0%nat].
Proof.
  pose (b := [mkAxis 0 10 OPEN; mkAxis 0 10 OPEN]).
  exists b, (mk_env 1 1 (9#20) (1#10) (map box_paxis b)), [P [1#2;5] 6; P [6;5] (9#20)],
    (P [1#2;5] 6), (P [6;5] (9#20)).
  split; [split; [qc|split; qc]|]. split; [repeat constructor; qc; intros; discriminate|].
  split. { left. split; [repeat constructor; qc|]. left. qc. }
  split; [reflexivity|]. split; [reflexivity|]. split; [reflexivity|]. split; [reflexivity|].
  split; [repeat constructor; qc|]. split; [repeat constructor; qc|]. split; [qc|].
  split; [|split; [qc|vm_compute; reflexivity]].
  eexists. split; [vm_compute; reflexivity|]. intros (w & [[]|[]]).
Qed.
Print Assumptions C20_large_near_border_refuted.

(* A build without MPI: the topology never stores the simulation bounds, so periodic borders are taken for
   processor borders and pairs across them are missed. With MPI the same pair is found. *)
Theorem C20_periodic_without_mpi_refuted :
  let setup mpi := [topology_axis mpi 0 10 WRAP; topology_axis mpi 0 10 WRAP] in
  let e mpi := mk_env 1 1 (9#20) (1#10) (setup mpi) in
  let ps := [P [1#4;5] (9#20); P [39#4;5] (9#20)] in
  getDistanceSqr [mkAxis 0 10 WRAP; mkAxis 0 10 WRAP] [1#4;5] [39#4;5] < Qsqr ((9#20) + (9#20)) /\
  traversePairs (e true) ps = Some [(0%nat, 1%nat, 1%Z)] /\
  exists vs, traversePairs (e false) ps = Some vs /\ ~ visited vs 0 1.
Proof.
  cbv zeta. split; [vm_compute; reflexivity|]. split; [vm_compute; reflexivity|].
  eexists. split; [vm_compute; reflexivity|]. intros (w & [[]|[]]).
Qed.
Print Assumptions C20_periodic_without_mpi_refuted.
