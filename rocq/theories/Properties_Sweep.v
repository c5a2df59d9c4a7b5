(* C131, C132: the forces of a step, and the reported potential energy, are those of all pairs of particles. *)
From Coq Require Import Reals Qreals.
From Verif Require Import Lib Model_Geometry Model_Handlers Spec_Handlers Model_Cells Spec_Cells Properties_Cells Model_Verlet
  Model_Sweep Spec_Sweep Proofs_Sweep4 Proofs_Sweep6.
From Verif Require Import Model_Forces Spec_Forces Proofs_Forces2.
From Coq Require Import Lra ZifyBool.
Local Open Scope R_scope.

(* C131, C132. construct() fills the lists of all interactions and, however the particles moved until the check asks for a new
   search, interact() gives each particle the sum of the forces that each other particle exerts on it when they are alone at their
   nearest images, and the potential energies of the interactions add up to that of all pairs. *)
Theorem C131_forces_of_all_pairs_partial : forall b its n ss fm sk mss gs ps xs v im om p w tol fac maxdel since old,
  let e := handler_env its fm sk mss gs (map wd b) in
  let fe := force_env b ps xs v im om p w in
  interactions_set its n ss fm -> searchable b e n ps -> moved_on b sk tol fac maxdel since ps xs -> apart fm ps fe ->
  (forall it, some_lists (old it)) ->
  exists lists s us,
    (forall it, In it (fm_list fm) -> construct_lists fm e ps it (old it) = Some (lists it)) /\
    sweep its fe lists (fm_list fm) cleared = Some (s, us) /\
    (forall a d, (a < length ps)%nat -> F s a d = sum_to (length ps) (fun j => if (j =? a)%nat then 0 else alone_force its fm ps fe d a j)) /\
    total_potential us = sum_to (length ps) (fun j => sum_to j (fun i => alone_energy its fm ps fe i j)).
Proof.
  intros b its n ss fm sk mss gs ps xs v im om p w tol fac maxdel since old e fe (HV & HR & HC & fm0 & HA & Hfm) (HB & HL & HS & HK & HP & HF & HN & HH) (HX & HXB & HT & HCK & HFAR) HZ HO.
  subst fm. apply (sweep_all b its n ss fm0 sk mss gs ps xs v im om p w tol fac maxdel since HV HR HC HA HB HL HS HK (fun q Hq => conj (proj1 (HP q Hq)) (proj1 (proj2 (HP q Hq)))) HF HN HH HX HXB HT HCK HFAR HZ old HO).
Qed.
Print Assumptions C131_forces_of_all_pairs_partial.

Definition with_pot (e : Model_Forces.env) : Model_Forces.env :=
  Model_Forces.mkEnv (e_dims e) (e_x e) (e_v e) (e_im e) (e_sg e) (e_om e) (e_bc e) (e_width e) true (e_vir e).
Lemma forces_without_pot k c e w i j st : option_map F (do_pair k c e w i j st) = option_map F (do_pair k c (with_pot e) w i j st).
Proof.
  unfold do_pair. cbn [with_pot e_x e_bc e_width e_dims e_sg]. destruct (Rlt_dec _ _); [|reflexivity].
  destruct k; cbn [kernel]; [unfold hard_sphere|unfold hard_sphere_ds|unfold lennard_jones|unfold coulomb|unfold buckingham|unfold hertz|unfold hooke];
    (destruct (Req_EM_T _ 0); [reflexivity|]); try reflexivity.
  - destruct (Rlt_dec _ 0); [reflexivity|]. cbn [with_pot e_im e_v e_dims]. destruct (Rlt_dec _ 0); reflexivity.
  - cbn [with_pot e_dims]. destruct (e_dims e =? 2)%nat; reflexivity.
Qed.

(* What the force and the energy of two particles alone are: for a force with energy U and repulsive force Fm (see Spec_Forces), at
   distance r of the nearest images, Fm along the line between them within the range of the interaction, and nothing beyond. *)
Theorem C131_force_of_two : forall its fm ps fe a j it U Fm d, let c := Q2R (i_cut (its it)) in
  let X := shift_of fe true a j in let r := norm (e_dims fe) X in
  describes (i_kind (its it)) c U Fm -> between fm ps a j = Some it -> a <> j -> (forall i, 0 <= e_sg fe i) -> 0 <= c -> 0 < r -> (d < e_dims fe)%nat ->
  alone_force its fm ps fe d a j = if Rlt_dec r ((e_sg fe a + e_sg fe j) * c) then Fm (e_sg fe a) (e_sg fe j) r * (X d / r) else 0.
Proof.
  intros its fm ps fe a j it U Fm d c X r HD HB N HS Hc Hr Hd. unfold alone_force. rewrite HB. unfold alone. fold c.
  assert (HE := forces_without_pot (i_kind (its it)) c fe true a j cleared). destruct (Rlt_dec _ _) as [L|G].
  - destruct (HD (with_pot fe) true a j cleared eq_refl (HS a) (HS j)) as (s & E & _ & O); [split; [exact Hr|exact L]|]. rewrite E in HE.
    destruct (do_pair _ _ fe _ _ _ _) as [s1|]; [|discriminate]. cbn in HE. injection HE as HE. rewrite HE, (O a d). rewrite Nat.eqb_refl.
    assert ((a =? j)%nat = false) as -> by lia. assert ((d <? e_dims (with_pot fe))%nat = true) as -> by (apply Nat.ltb_lt; exact Hd). cbn [cleared F]. unfold vscale.
    change (shift_of (with_pot fe) true a j) with X. change (norm (e_dims (with_pot fe)) X) with r. cbn [with_pot e_sg]. field. lra.
  - rewrite out_of_range_pair; [reflexivity| |apply Rnot_lt_le; exact G].
    apply Rmult_le_pos; [assert (A := HS a); assert (B := HS j); lra|exact Hc].
Qed.
Print Assumptions C131_force_of_two.
Theorem C132_energy_of_two : forall its fm ps fe a j it U Fm, let c := Q2R (i_cut (its it)) in let r := norm (e_dims fe) (shift_of fe true a j) in
  describes (i_kind (its it)) c U Fm -> e_pot fe = true -> between fm ps a j = Some it -> (forall i, 0 <= e_sg fe i) -> 0 <= c -> 0 < r ->
  alone_energy its fm ps fe a j = if Rlt_dec r ((e_sg fe a + e_sg fe j) * c) then U (e_sg fe a) (e_sg fe j) r else 0.
Proof.
  intros its fm ps fe a j it U Fm c r HD HP HB HS Hc Hr. unfold alone_energy. rewrite HB. unfold alone. fold c. destruct (Rlt_dec _ _) as [L|G].
  - destruct (HD fe true a j cleared HP (HS a) (HS j)) as (s & E & EU & _); [split; [exact Hr|exact L]|]. rewrite E, EU. cbn [cleared pot]. apply Rplus_0_l.
  - rewrite out_of_range_pair; [reflexivity| |apply Rnot_lt_le; exact G].
    apply Rmult_le_pos; [assert (A := HS a); assert (B := HS j); lra|exact Hc].
Qed.
Print Assumptions C132_energy_of_two.

(* C131. Hard spheres of repulsion k: the force on particle a is the sum of k (R_a + R_j - r) along the line from j to the nearest image
   of a, over all particles j whose type interacts with that of a and which overlap a. *)
Theorem C131_hard_spheres_partial : forall b its n ss fm sk mss gs ps xs v im om p w tol fac maxdel since old k,
  let e := handler_env its fm sk mss gs (map wd b) in
  let fe := force_env b ps xs v im om p w in
  (forall it, its it = mkI (HardSphere k) 1) ->
  interactions_set its n ss fm -> searchable b e n ps -> moved_on b sk tol fac maxdel since ps xs -> apart fm ps fe ->
  (forall it, some_lists (old it)) ->
  exists lists s us,
    (forall it, In it (fm_list fm) -> construct_lists fm e ps it (old it) = Some (lists it)) /\
    sweep its fe lists (fm_list fm) cleared = Some (s, us) /\
    forall a d, (a < length ps)%nat -> (d < length b)%nat -> F s a d = sum_to (length ps) (fun j =>
      let X := shift_of fe true a j in let r := norm (length b) X in
      match between fm ps a j with
      | Some _ => if (j =? a)%nat then 0 else if Rlt_dec r (e_sg fe a + e_sg fe j) then k * (e_sg fe a + e_sg fe j - r) * (X d / r) else 0
      | None => 0
      end).
Proof.
  intros b its n ss fm sk mss gs ps xs v im om p w tol fac maxdel since old k e fe HI H1 H2 H3 H4 H5.
  destruct (C131_forces_of_all_pairs_partial b its n ss fm sk mss gs ps xs v im om p w tol fac maxdel since old H1 H2 H3 H4 H5) as (lists & s & us & A & B & C & _).
  exists lists, s, us. split; [exact A|]. split; [exact B|]. intros a d Ha Hd. rewrite (C a d Ha).
  assert (ST : forall m (g h : nat -> R), (forall j, (j < m)%nat -> g j = h j) -> sum_to m g = sum_to m h).
  { clear. induction m as [|m IH]; intros g h H; cbn; [reflexivity|]. rewrite (IH g h) by (intros; apply H; lia). rewrite H by lia. reflexivity. }
  fold fe. apply ST. intros j _. cbv zeta. destruct (Nat.eqb_spec j a) as [E|N]; [destruct (between fm ps a j); reflexivity|].
  assert (HS : forall i, 0 <= e_sg fe i).
  { intros i. unfold fe, force_env. cbn [e_sg]. destruct (nth_error ps i) as [q|] eqn:E; [|apply Rle_refl]. rewrite <- Proofs_Sweep4.Q2R_0.
    apply Qle_Rle. destruct H2 as (_ & _ & _ & _ & HP & _). apply HP. eapply nth_error_In; eauto. }
  destruct (between fm ps a j) as [it|] eqn:HB.
  - assert (C1 : Q2R (i_cut (its it)) = 1) by (rewrite HI; unfold Q2R; cbn [i_cut Qnum Qden]; field).
    rewrite (C131_force_of_two its fm ps fe a j it (hs_U k) (hs_F k) d); auto.
    + rewrite C1, Rmult_1_r. reflexivity.
    + rewrite HI. apply hs_describes.
    + rewrite C1. lra.
    + apply (H4 a j it); [congruence|exact HB].
  - unfold alone_force. now rewrite HB.
Qed.
Print Assumptions C131_hard_spheres_partial.

(* C131. The forces do not depend on when the pairs were searched, on the cells, on the skin depth or on the lists before: two
   searches of the same particles at other positions, both still valid, give the same forces and energy. *)
Theorem C131_any_search_partial : forall b its n ss fm ps ps' xs v im om p w sk mss gs tol fac maxdel since old sk' mss' gs' tol' fac' maxdel' since' old',
  let e := handler_env its fm sk mss gs (map wd b) in
  let e' := handler_env its fm sk' mss' gs' (map wd b) in
  let fe := force_env b ps xs v im om p w in
  interactions_set its n ss fm -> map (fun q => (prd q, ptype q)) ps' = map (fun q => (prd q, ptype q)) ps ->
  searchable b e n ps -> moved_on b sk tol fac maxdel since ps xs -> searchable b e' n ps' -> moved_on b sk' tol' fac' maxdel' since' ps' xs -> apart fm ps fe ->
  (forall it, some_lists (old it)) -> (forall it, some_lists (old' it)) ->
  exists lists lists' s s' us us',
    (forall it, In it (fm_list fm) -> construct_lists fm e ps it (old it) = Some (lists it)) /\
    (forall it, In it (fm_list fm) -> construct_lists fm e' ps' it (old' it) = Some (lists' it)) /\
    sweep its fe lists (fm_list fm) cleared = Some (s, us) /\ sweep its fe lists' (fm_list fm) cleared = Some (s', us') /\
    (forall a d, (a < length ps)%nat -> F s' a d = F s a d) /\ total_potential us' = total_potential us.
Proof.
  intros b its n ss fm ps ps' xs v im om p w sk mss gs tol fac maxdel since old sk' mss' gs' tol' fac' maxdel' since' old' e e' fe H1 HM H2 H3 H2' H3' H4 H5 H5'.
  assert (HL : length ps' = length ps) by (rewrite <- (map_length (fun q => (prd q, ptype q)) ps'), HM; apply map_length).
  assert (HN : forall i, option_map (fun q => (prd q, ptype q)) (nth_error ps' i) = option_map (fun q => (prd q, ptype q)) (nth_error ps i)).
  { intros i. rewrite <- !nth_error_map. now rewrite HM. }
  assert (HB : forall i j, between fm ps' i j = between fm ps i j).
  { intros i j. unfold between. assert (A := HN i). assert (B := HN j). destruct (nth_error ps' i), (nth_error ps i); try discriminate; [|reflexivity]. cbn in A. injection A as _ A.
    destruct (nth_error ps' j), (nth_error ps j); try discriminate; [|reflexivity]. cbn in B. injection B as _ B. now rewrite A, B. }
  assert (HE : force_env b ps' xs v im om p w = fe).
  { unfold fe, force_env. f_equal. apply FunctionalExtensionality.functional_extensionality. intros i. assert (A := HN i). destruct (nth_error ps' i), (nth_error ps i); try discriminate; [|reflexivity]. cbn in A. injection A as A _. now rewrite A. }
  destruct (C131_forces_of_all_pairs_partial b its n ss fm sk mss gs ps xs v im om p w tol fac maxdel since old H1 H2 H3 H4 H5) as (lists & s & us & A & B & C & D).
  destruct (C131_forces_of_all_pairs_partial b its n ss fm sk' mss' gs' ps' xs v im om p w tol' fac' maxdel' since' old' H1 H2' H3') as (lists' & s' & us' & A' & B' & C' & D').
  { rewrite HE. intros i j it N. rewrite HB. now apply H4. } { exact H5'. }
  rewrite HE in *. exists lists, lists', s, s', us, us'. repeat (split; [assumption|]). rewrite HL in C', D'.
  assert (ST : forall m (g h : nat -> R), (forall j, (j < m)%nat -> g j = h j) -> sum_to m g = sum_to m h).
  { clear. induction m as [|m IH]; intros g h H; cbn; [reflexivity|]. rewrite (IH g h) by (intros; apply H; lia). rewrite H by lia. reflexivity. }
  split.
  - intros a d Ha. rewrite (C a d Ha), (C' a d Ha). apply ST. intros j _. destruct (j =? a)%nat; [reflexivity|]. unfold alone_force. rewrite HB. reflexivity.
  - rewrite D, D'. apply ST. intros j _. apply ST. intros i _. unfold alone_energy. rewrite HB. reflexivity.
Qed.
Print Assumptions C131_any_search_partial.

(* ------------------------------------------------------------------ a concrete system *)
Definition sw_b : box := [mkAxis 0 20 WRAP].
Definition sw_its : nat -> inter := fun _ => mkI (HardSphere 50) 1.
Definition sw_ss : list setting := [mkSet 0 0 (Some 0%nat) true].
Definition sw_fm : force_master := Eval vm_compute in
  match apply_settings (fun i => 1%Q) sw_ss (new_fm 1) with Some f => initialize f | None => new_fm 1 end.
Definition sw_gs : list gaxis := Eval vm_compute in grid_for (11#10) (map box_paxis sw_b).
Definition sw_e : Model_Cells.env := handler_env sw_its sw_fm (1#10) (1#2) sw_gs (map wd sw_b).
(* two small particles in contact across the border, and a large one *)
Definition sw_ps : list particle := [P [1#4]%Q (2#5); P [79#4]%Q (2#5); P [10]%Q 3].
(* the first has moved by 2/100 *)
Definition sw_xs : list (list Q) := [[27#100]; [79#4]; [10]]%Q.
Definition sw_fe : Model_Forces.env := force_env sw_b sw_ps sw_xs (fun _ _ => 0) (fun _ => 1) (fun _ => 0) true true.

Lemma sw_set : interactions_set sw_its 1 sw_ss sw_fm.
Proof.
  split; [intros s [<-|[]]; cbn; lia|]. split; [intros s [<-|[]]; reflexivity|]. split; [intros it; cbn; split; vm_compute; discriminate|].
  eexists. split; [vm_compute; reflexivity|vm_compute; reflexivity].
Qed.
Lemma sw_built : search_built sw_b sw_e /\ box_large_enough (min_small_cutoff sw_e) sw_b /\ stencil_range (min_small_cutoff sw_e) sw_b.
Proof.
  split; [split; [vm_compute; reflexivity|split; [reflexivity|vm_compute; reflexivity]]|].
  split; [repeat constructor; vm_compute; try discriminate; intros; discriminate|].
  left. split; [repeat constructor; vm_compute; discriminate|]. left. vm_compute. reflexivity.
Qed.
Lemma sw_x ps xs v im om p w i j : shift_of (force_env sw_b ps xs v im om p w) true i j 0%nat = Q2R (min_image1 (mkAxis 0 20 WRAP) (nth 0 (nth i xs []) 0 - nth 0 (nth j xs []) 0)%Q).
Proof. rewrite <- (correction_Q (mkAxis 0 20 WRAP)). reflexivity. Qed.
Lemma sw_norm X : norm 1 X = Rabs (X 0%nat).
Proof. unfold norm. cbn [dot]. rewrite Rplus_0_r. change (sqrt (Rsqr (X 0%nat)) = Rabs (X 0%nat)). apply sqrt_Rsqr_abs. Qed.

Lemma sw_old it : some_lists ((fun _ : nat => new_pairs) it).
Proof. exists []. split; [intros a b l []|reflexivity]. Qed.

Example C131_case :
  interactions_set sw_its 1 sw_ss sw_fm /\ searchable sw_b sw_e 1 sw_ps /\ moved_on sw_b (1#10) (95#100) 1 1 (1#2) sw_ps sw_xs /\ apart sw_fm sw_ps sw_fe /\
  exists lists s us, construct_lists sw_fm sw_e sw_ps 0 new_pairs = Some (lists 0%nat) /\ sweep sw_its sw_fe lists (fm_list sw_fm) cleared = Some (s, us) /\
    F s 0%nat 0%nat = 14.
Proof.
  assert (H2 : searchable sw_b sw_e 1 sw_ps).
  { destruct sw_built as (A & B & C). split; [exact A|]. split; [exact B|]. split; [exact C|]. split; [vm_compute; reflexivity|].
    split. { intros p Hp. repeat (destruct Hp as [<-|Hp]; [split; [vm_compute; discriminate|split; [repeat constructor; intros; try discriminate; split; vm_compute; discriminate|cbn; lia]]|]). destruct Hp. }
    split. { intros p Hp Hlt. repeat (destruct Hp as [<-|Hp]; [try (exfalso; revert Hlt; vm_compute; discriminate)|]); [|destruct Hp].
      split; [repeat constructor; vm_compute; try discriminate; reflexivity|]. repeat constructor. intros HW. exfalso. apply HW. reflexivity. }
    split. { intros i j pi pj Hij Hi Hj Hli Hlj. exfalso. apply Hij.
      assert (Hk : forall k pk, nth_error sw_ps k = Some pk -> (max_small_sigma sw_e < sigma sw_e pk)%Q -> k = 2%nat).
      { intros k pk Hk Hlt. do 3 (destruct k as [|k]; [injection Hk as <-; first [reflexivity|exfalso; revert Hlt; vm_compute; discriminate]|]). destruct k; discriminate. }
      rewrite (Hk i pi Hi Hli), (Hk j pj Hj Hlj). reflexivity. }
    intros p q a Hp Hq [<-|[]] _ _. repeat (destruct Hp as [<-|Hp]; [repeat (destruct Hq as [<-|Hq]; [vm_compute; discriminate|]); destruct Hq|]). destruct Hp. }
  assert (H3 : moved_on sw_b (1#10) (95#100) 1 1 (1#2) sw_ps sw_xs).
  { split; [reflexivity|]. split. { intros x Hx. repeat (destruct Hx as [<-|Hx]; [reflexivity|]). destruct Hx. } split; [split; vm_compute; discriminate|].
    split; [vm_compute; reflexivity|]. intros m Hm. vm_compute in Hm. repeat (destruct Hm as [<-|Hm]; [vm_compute; reflexivity|]). destruct Hm. }
  assert (H4 : apart sw_fm sw_ps sw_fe).
  { intros i j it N B. change (e_dims sw_fe) with 1%nat. rewrite sw_norm. apply Rabs_pos_lt. unfold sw_fe. rewrite sw_x. rewrite <- Q2R_0. intros E. apply eqR_Qeq in E.
    unfold between in B. do 3 (destruct i as [|i]; [do 3 (destruct j as [|j]; [try (apply N; reflexivity); revert E; vm_compute; discriminate|]); destruct j; discriminate|]). destruct i; discriminate. }
  split; [exact sw_set|]. split; [exact H2|]. split; [exact H3|]. split; [exact H4|].
  destruct (C131_hard_spheres_partial sw_b sw_its 1 sw_ss sw_fm (1#10) (1#2) sw_gs sw_ps sw_xs (fun _ _ => 0) (fun _ => 1) (fun _ => 0) true true (95#100) 1 1 (1#2) (fun _ => new_pairs) 50 (fun _ => eq_refl) sw_set H2 H3 H4 sw_old) as (lists & s & us & A & B & C).
  exists lists, s, us. split; [apply A; now left|]. split; [exact B|]. rewrite (C 0%nat 0%nat) by (cbn; lia).
  change (length sw_ps) with 3%nat. cbn [sum_to]. change (length sw_b) with 1%nat. rewrite !sw_norm, !sw_x.
  change (e_sg (force_env sw_b sw_ps sw_xs (fun _ _ => 0) (fun _ => 1) (fun _ => 0) true true) 0%nat) with (Q2R (2#5)).
  change (e_sg (force_env sw_b sw_ps sw_xs (fun _ _ => 0) (fun _ => 1) (fun _ => 0) true true) 1%nat) with (Q2R (2#5)).
  change (e_sg (force_env sw_b sw_ps sw_xs (fun _ _ => 0) (fun _ => 1) (fun _ => 0) true true) 2%nat) with (Q2R 3).
  cbn [between nth_error sw_ps getInteraction ptype P Nat.eqb nth sw_xs].
  rewrite (Qeq_eqR (min_image1 _ ((27#100) - (79#4))%Q) (13#25)) by (vm_compute; reflexivity).
  rewrite (Qeq_eqR (min_image1 _ ((27#100) - 10)%Q) (-973#100)) by (vm_compute; reflexivity).
  assert (E1 : getInteraction 0 0 sw_fm = Some 0%nat) by (vm_compute; reflexivity). rewrite E1.
  assert (V1 : Q2R (13#25) = 13 / 25) by (unfold Q2R; cbn; field). assert (V2 : Q2R (-973#100) = - (973 / 100)) by (unfold Q2R; cbn; field).
  assert (V3 : Q2R (2#5) = 2 / 5) by (unfold Q2R; cbn; field). assert (V4 : Q2R 3 = 3) by (unfold Q2R; cbn; field). rewrite V1, V2, V3, V4.
  rewrite Rabs_Ropp, !Rabs_pos_eq by lra. destruct (Rlt_dec (13 / 25) _) as [_|N]; [|exfalso; apply N; lra]. destruct (Rlt_dec (973 / 100) _) as [L|_]; [exfalso; lra|]. field.
Qed.

(* C132. The potential energy that the interactions report adds up to the energy of all pairs within range at their nearest images. *)
Theorem C132_energy_of_all_pairs_partial : forall b its n ss fm sk mss gs ps xs v im om w tol fac maxdel since old U Fm,
  let e := handler_env its fm sk mss gs (map wd b) in
  let fe := force_env b ps xs v im om true w in
  (forall it, describes (i_kind (its it)) (Q2R (i_cut (its it))) (U it) (Fm it)) ->
  interactions_set its n ss fm -> searchable b e n ps -> moved_on b sk tol fac maxdel since ps xs -> apart fm ps fe ->
  (forall it, some_lists (old it)) ->
  exists lists s us,
    (forall it, In it (fm_list fm) -> construct_lists fm e ps it (old it) = Some (lists it)) /\
    sweep its fe lists (fm_list fm) cleared = Some (s, us) /\
    total_potential us = sum_to (length ps) (fun j => sum_to j (fun i =>
      let r := norm (length b) (shift_of fe true i j) in
      match between fm ps i j with
      | Some it => if Rlt_dec r ((e_sg fe i + e_sg fe j) * Q2R (i_cut (its it))) then U it (e_sg fe i) (e_sg fe j) r else 0
      | None => 0
      end)).
Proof.
  intros b its n ss fm sk mss gs ps xs v im om w tol fac maxdel since old U Fm e fe HI H1 H2 H3 H4 H5.
  destruct (C131_forces_of_all_pairs_partial b its n ss fm sk mss gs ps xs v im om true w tol fac maxdel since old H1 H2 H3 H4 H5) as (lists & s & us & A & B & _ & C).
  exists lists, s, us. split; [exact A|]. split; [exact B|]. rewrite C. fold fe.
  assert (ST : forall m (g h : nat -> R), (forall j, (j < m)%nat -> g j = h j) -> sum_to m g = sum_to m h).
  { clear. induction m as [|m IH]; intros g h H; cbn; [reflexivity|]. rewrite (IH g h) by (intros; apply H; lia). rewrite H by lia. reflexivity. }
  apply ST. intros j _. apply ST. intros i Hi. cbv zeta.
  assert (HS : forall i, 0 <= e_sg fe i).
  { intros k. unfold fe, force_env. cbn [e_sg]. destruct (nth_error ps k) as [q|] eqn:E; [|apply Rle_refl]. rewrite <- Q2R_0.
    apply Qle_Rle. destruct H2 as (_ & _ & _ & _ & HP & _). apply HP. eapply nth_error_In; eauto. }
  destruct (between fm ps i j) as [it|] eqn:HB; [|unfold alone_energy; now rewrite HB].
  assert (HC : 0 <= Q2R (i_cut (its it))) by (rewrite <- Q2R_0; apply Qle_Rle; apply H1).
  rewrite (C132_energy_of_two its fm ps fe i j it (U it) (Fm it) (HI it) eq_refl HB HS HC); [reflexivity|]. apply (H4 i j it); [clear - Hi; lia|exact HB].
Qed.
Print Assumptions C132_energy_of_all_pairs_partial.
Example C132_case : exists lists s us, construct_lists sw_fm sw_e sw_ps 0 new_pairs = Some (lists 0%nat) /\ sweep sw_its sw_fe lists (fm_list sw_fm) cleared = Some (s, us) /\
  total_potential us = 49 / 25.
Proof.
  destruct C131_case as (_ & H2 & H3 & H4 & _).
  assert (HD : forall it, describes (i_kind (sw_its it)) (Q2R (i_cut (sw_its it))) (hs_U 50) (hs_F 50)) by (intros; apply hs_describes).
  destruct (C132_energy_of_all_pairs_partial sw_b sw_its 1 sw_ss sw_fm (1#10) (1#2) sw_gs sw_ps sw_xs (fun _ _ => 0) (fun _ => 1) (fun _ => 0) true (95#100) 1 1 (1#2) (fun _ => new_pairs) (fun _ => hs_U 50) (fun _ => hs_F 50) HD sw_set H2 H3 H4 sw_old) as (lists & s & us & A & B & C).
  exists lists, s, us. split; [apply A; now left|]. split; [exact B|]. rewrite C.
  change (length sw_ps) with 3%nat. cbn [sum_to]. change (length sw_b) with 1%nat. rewrite !sw_norm, !sw_x.
  change (e_sg (force_env sw_b sw_ps sw_xs (fun _ _ => 0) (fun _ => 1) (fun _ => 0) true true) 0%nat) with (Q2R (2#5)).
  change (e_sg (force_env sw_b sw_ps sw_xs (fun _ _ => 0) (fun _ => 1) (fun _ => 0) true true) 1%nat) with (Q2R (2#5)).
  change (e_sg (force_env sw_b sw_ps sw_xs (fun _ _ => 0) (fun _ => 1) (fun _ => 0) true true) 2%nat) with (Q2R 3).
  cbn [between nth_error sw_ps getInteraction ptype P nth sw_xs].
  rewrite (Qeq_eqR (min_image1 _ ((27#100) - (79#4))%Q) (13#25)) by (vm_compute; reflexivity).
  rewrite (Qeq_eqR (min_image1 _ ((27#100) - 10)%Q) (-973#100)) by (vm_compute; reflexivity).
  rewrite (Qeq_eqR (min_image1 _ ((79#4) - 10)%Q) (39#4)) by (vm_compute; reflexivity).
  assert (E1 : getInteraction 0 0 sw_fm = Some 0%nat) by (vm_compute; reflexivity). rewrite E1.
  assert (C1 : Q2R (i_cut (sw_its 0)) = 1) by (unfold Q2R; cbn [i_cut sw_its Qnum Qden]; field). rewrite C1.
  assert (V1 : Q2R (13#25) = 13 / 25) by (unfold Q2R; cbn; field). assert (V2 : Q2R (-973#100) = - (973 / 100)) by (unfold Q2R; cbn; field). assert (V5 : Q2R (39#4) = 39 / 4) by (unfold Q2R; cbn; field).
  assert (V3 : Q2R (2#5) = 2 / 5) by (unfold Q2R; cbn; field). assert (V4 : Q2R 3 = 3) by (unfold Q2R; cbn; field). rewrite V1, V2, V3, V4, V5.
  rewrite Rabs_Ropp, !Rabs_pos_eq by lra. destruct (Rlt_dec (13 / 25) _) as [_|N]; [|exfalso; apply N; lra]. destruct (Rlt_dec (973 / 100) _) as [L|_]; [exfalso; lra|].
  destruct (Rlt_dec (39 / 4) _) as [L|_]; [exfalso; lra|]. unfold hs_U. field.
Qed.
(* If no data object asked for the potential energy, 0 is reported, whatever the lists and the forces. *)
Theorem C132_not_asked : forall its fe lists l s s' us, e_pot fe = false -> sweep its fe lists l s = Some (s', us) -> total_potential us = 0.
Proof.
  intros its fe lists l s s' us HP H. unfold total_potential.
  assert (K : forall k c w i j st st', do_pair k c fe w i j st = Some st' -> pot st' = pot st).
  { intros k c w i j st st'. unfold do_pair. destruct (Rlt_dec _ _); [|congruence].
    destruct k; cbn [kernel]; [unfold hard_sphere|unfold hard_sphere_ds|unfold lennard_jones|unfold coulomb|unfold buckingham|unfold hertz|unfold hooke];
      (destruct (Req_EM_T _ 0); [discriminate|]); unfold book; rewrite ?HP; try (intros E; injection E as <-; reflexivity).
    - destruct (Rlt_dec _ 0); [congruence|]. destruct (Rlt_dec _ 0); [discriminate|]. intros E. injection E as <-. reflexivity.
    - destruct (e_dims fe =? 2)%nat; intros E; injection E as <-; reflexivity. }
  assert (FD : forall x w (L : list (Z * Z)) st st', fold_left (fun st p => act_pair x fe w (fst p) (snd p) st) L (Some st) = Some st' -> pot st' = pot st).
  { intros x w. induction L as [|q L IH]; intros st st' E; cbn [fold_left] in E; [congruence|]. unfold act_pair at 2 in E.
    destruct (do_pair _ _ _ _ _ _ _) as [s1|] eqn:E1.
    - rewrite (IH _ _ E). exact (K _ _ _ _ _ _ _ E1).
    - exfalso. clear - E. induction L as [|q L IH]; cbn [fold_left act_pair] in E; [discriminate|auto]. }
  assert (I1 : forall x L s0 s1, interact_one x fe L s0 = Some s1 -> pot s1 = 0).
  { intros x L s0 s1. unfold interact_one, interact. destruct (pairs_visit 0 L) as [p0|]; [|discriminate]. destruct (pairs_visit 1 L) as [p1|]; [|discriminate].
    destruct (fold_left _ p0 _) as [s2|] eqn:E0.
    - intros E. assert (Z : pot s2 = 0) by exact (FD _ _ _ _ _ E0). rewrite <- Z. exact (FD _ _ _ _ _ E).
    - intros E. exfalso. clear - E. induction p1 as [|q L' IH]; cbn [fold_left act_pair] in E; [discriminate|auto]. }
  assert (G : forall acc, fold_left Rplus us acc = acc); [|apply G].
  revert s us H. induction l as [|it l IH]; intros s us H acc; cbn [sweep] in H; [injection H as _ <-; reflexivity|].
  destruct (interact_one _ _ _ _) as [s1|] eqn:E1; [|discriminate]. destruct (sweep _ _ _ _ _) as [[s2 us2]|] eqn:E2; [|discriminate].
  injection H as <- <-. cbn [fold_left]. rewrite (I1 _ _ _ _ E1), Rplus_0_r. exact (IH _ _ E2 acc).
Qed.
Print Assumptions C132_not_asked.

(* C131 fails for two large particles that overlap across the border of a periodic box but, being more than half the box apart,
   also overlap directly: their force is that of the farther image, with the wrong direction. *)
Definition sw_ps2 : list particle := [P [2]%Q 6; P [25#2]%Q 5].
Definition sw_xs2 : list (list Q) := [[2]; [25#2]]%Q.
Definition sw_fe2 : Model_Forces.env := force_env sw_b sw_ps2 sw_xs2 (fun _ _ => 0) (fun _ => 1) (fun _ => 0) true true.
Theorem C131_large_particles_refuted :
  interactions_set sw_its 1 sw_ss sw_fm /\ search_built sw_b sw_e /\ box_large_enough (min_small_cutoff sw_e) sw_b /\ stencil_range (min_small_cutoff sw_e) sw_b /\
  large_fit sw_b sw_e sw_ps2 /\ large_different sw_e sw_ps2 /\ moved_on sw_b (1#10) (95#100) 1 1 (1#2) sw_ps2 sw_xs2 /\
  exists lists s us, construct_lists sw_fm sw_e sw_ps2 0 new_pairs = Some (lists 0%nat) /\ sweep sw_its sw_fe2 lists (fm_list sw_fm) cleared = Some (s, us) /\
    F s 0%nat 0%nat = -25 /\ alone_force sw_its sw_fm sw_ps2 sw_fe2 0 0 1 = 75.
Proof.
  destruct sw_built as (A & B & C). split; [exact sw_set|]. split; [exact A|]. split; [exact B|]. split; [exact C|].
  split. { intros p Hp _. repeat (destruct Hp as [<-|Hp]; [split; [repeat constructor; vm_compute; try discriminate; reflexivity|repeat constructor; intros HW; exfalso; apply HW; reflexivity]|]). destruct Hp. }
  split. { intros i j pi pj Hij Hi Hj _ _. do 2 (destruct i as [|i]; [do 2 (destruct j as [|j]; [try (exfalso; now apply Hij); injection Hi as <-; injection Hj as <-; first [left; vm_compute; reflexivity|right; vm_compute; reflexivity]|]); destruct j; discriminate|]). destruct i; discriminate. }
  split. { split; [reflexivity|]. split. { intros x Hx. repeat (destruct Hx as [<-|Hx]; [reflexivity|]). destruct Hx. } split; [split; vm_compute; discriminate|].
    split; [vm_compute; reflexivity|]. intros m Hm. vm_compute in Hm. repeat (destruct Hm as [<-|Hm]; [vm_compute; reflexivity|]). destruct Hm. }
  assert (EL : exists L, construct_lists sw_fm sw_e sw_ps2 0 new_pairs = Some L /\ pairs_visit 0 L = Some [(0, 1)%Z] /\ pairs_visit 1 L = Some []).
  { eexists. split; [vm_compute; reflexivity|]. split; reflexivity. }
  destruct EL as (L & EL & E0 & E1). exists (fun _ => L).
  assert (HN : norm 1 (shift_of sw_fe2 false 0 1) = 21 / 2).
  { rewrite sw_norm. unfold shift_of, vsub, sw_fe2, force_env. cbn [e_x nth sw_xs2]. rewrite <- Q2R_minus. rewrite (Qeq_eqR (2 - (25#2)) (-21#2)) by (vm_compute; reflexivity). unfold Q2R. cbn [Qnum Qden]. rewrite Rabs_left; lra. }
  assert (S0 : e_sg sw_fe2 0%nat = 6) by (change (Q2R 6 = 6); unfold Q2R; cbn [Qnum Qden]; field). assert (S1 : e_sg sw_fe2 1%nat = 5) by (change (Q2R 5 = 5); unfold Q2R; cbn [Qnum Qden]; field).
  assert (C1 : Q2R (i_cut (sw_its 0)) = 1) by (unfold Q2R; cbn [i_cut sw_its Qnum Qden]; field).
  destruct (hs_describes 50 1 sw_fe2 false 0%nat 1%nat cleared) as (s & E & _ & O); [reflexivity|rewrite S0; lra|rewrite S1; lra|change (e_dims sw_fe2) with 1%nat; rewrite HN, S0, S1; lra|].
  exists s, [pot s]. split; [exact EL|]. split.
  - cbn [fm_list sw_fm sweep]. unfold interact_one, interact. rewrite E0, E1. cbn [fold_left act_pair fst snd]. rewrite C1.
    change (Z.to_nat 0) with 0%nat. change (Z.to_nat 1) with 1%nat. change (i_kind (sw_its 0)) with (HardSphere 50). change (mkF (F cleared) (Tq cleared) 0 0) with cleared. rewrite E. reflexivity.
  - split.
    + rewrite (O 0%nat 0%nat). cbn [Nat.eqb]. change (e_dims sw_fe2) with 1%nat. cbn [Nat.ltb Nat.leb]. rewrite HN, S0, S1. cbn [cleared F]. unfold vscale, hs_F.
      assert (X : shift_of sw_fe2 false 0 1 0%nat = - (21 / 2)). { unfold shift_of, vsub, sw_fe2, force_env. cbn [e_x nth sw_xs2]. unfold Q2R. cbn [Qnum Qden]. field. } rewrite X. field.
    + assert (X : shift_of sw_fe2 true 0 1 0%nat = 19 / 2). { unfold sw_fe2. rewrite sw_x. rewrite (Qeq_eqR _ (19#2)) by (vm_compute; reflexivity). unfold Q2R. cbn [Qnum Qden]. field. }
      rewrite (C131_force_of_two sw_its sw_fm sw_ps2 sw_fe2 0 1 0 (hs_U 50) (hs_F 50) 0).
      * change (e_dims sw_fe2) with 1%nat. rewrite sw_norm, X, S0, S1, C1. rewrite Rabs_pos_eq by lra. destruct (Rlt_dec _ _) as [_|N]; [unfold hs_F; field|exfalso; apply N; lra].
      * apply hs_describes.
      * vm_compute. reflexivity.
      * discriminate.
      * intros [|[|i]]; [rewrite S0; lra|rewrite S1; lra|]. unfold sw_fe2, force_env. cbn [e_sg nth_error sw_ps2]. destruct i; apply Rle_refl.
      * rewrite C1. lra.
      * change (e_dims sw_fe2) with 1%nat. rewrite sw_norm, X. rewrite Rabs_pos_eq by lra. lra.
      * cbn. lia.
Qed.
Print Assumptions C131_large_particles_refuted.
