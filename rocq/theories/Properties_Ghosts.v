(* C37, C39, C52-C54: ghosts on other processors, every schedule. *)
From Coq Require Import String.
From Verif Require Import Lib Model_Geometry Model_Store Model_Buffer Model_Topology Model_Messages Model_Ghosts Model_SendSize Spec_Geometry Spec_Store
  Spec_Buffer Spec_Topology Proofs_Store1 Proofs_Store2 Proofs_Buffer Proofs_Ghost
  Proofs_Topology1 Proofs_Topology2 Proofs_Topology3 Proofs_Topology4 Proofs_Messages1 Proofs_Messages2 Proofs_Messages3 Proofs_Messages4
  Proofs_Messages5 Proofs_Period Proofs_Gather Properties_Store Properties_Topology.
From Coq Require Import Permutation ZifyBool ZifyNat.
Local Open Scope list_scope.

Lemma sequence_some {A} (l : list A) : sequence (map Some l) = Some l.
Proof. induction l as [|a l IH]; [reflexivity|]. cbn [map sequence]. now rewrite IH. Qed.

(* Which particles are sent as ghosts to a neighbour. *)
Lemma nearto_within bx P t cut n k kb p x : (2 <= P)%nat -> nonempty (bounds_of bx) -> t = topology_tree P (bounds_of bx) -> (List.length bx <= 4)%nat ->
  In k (neighbor_ranks bx n t) -> process_bounds k t = Some kb -> p_x p = map Some x -> in_closed bx x ->
  nearto bx t cut n k p = true <-> within bx kb x (cut p).
Proof.
  intros HP HB Ht Hdim Hin Hkb Hx Hc. unfold nearto.
  assert (Hn : NoDup (neighbor_ranks bx n t)) by (apply (nb_nodup bx P t HP HB Ht)).
  apply In_nth_error in Hin as [i Hi]. rewrite (proj2 (index_of_nth (neighbors bx n t) Hn i k) Hi).
  unfold near. rewrite Hx, sequence_some. destruct (domain_overlaps bx (neighbors bx n t) x (cut p)) as [lo|] eqn:Eo.
  2:{ unfold domain_overlaps in Eo. destruct (Nat.ltb_spec 4 (List.length bx)); [lia|discriminate]. }
  assert (HN : forall r nb, In (r, nb) (neighbors bx n t) -> part_of nb (bounds_of bx) /\ Forall (fun mM => fst mM <= snd mM) nb /\ process_bounds r t = Some nb).
  { intros r nb Hr. apply neighbors_in in Hr as (_ & _ & Hr & _). destruct (tree_ok bx P t HP HB Ht) as (G & _). destruct (G _ _ Hr) as (Hne & Hpo & _).
    split; [exact Hpo|]. split; [|now apply process_bounds_leaf; [apply (ranks_nodup bx P t HP HB Ht)|]]. apply Forall_forall. intros [m M] HmM. cbn. apply Qlt_le_weak. now apply Hne. }
  assert (S := overlaps_spec bx (neighbors bx n t) x (cut p) lo Eo Hc (fun r nb H => let '(conj a (conj b _)) := HN r nb H in conj a b) i).
  split; intros H.
  - apply existsb_exists in H as (j & Hj & Ej). apply Nat.eqb_eq in Ej. subst j. apply S in Hj as (r & nb & Hr & H0 & H1).
    unfold neighbor_ranks in Hi. rewrite nth_error_map, Hr in Hi. cbn in Hi. injection Hi as ->. apply nth_error_In in Hr. destruct (HN _ _ Hr) as (_ & _ & E).
    assert (nb = kb) by congruence. subst nb. split; auto.
  - apply existsb_exists. exists i. split; [|apply Nat.eqb_refl]. apply S. unfold neighbor_ranks in Hi. rewrite nth_error_map in Hi.
    destruct (nth_error (neighbors bx n t) i) as [[r nb]|] eqn:Er; [|discriminate]. cbn in Hi. injection Hi as ->.
    assert (Hr : In (k, nb) (neighbors bx n t)) by (eapply nth_error_In; eauto). destruct (HN _ _ Hr) as (_ & _ & E). assert (nb = kb) by congruence. subst nb.
    exists k, kb. split; [reflexivity|]. exact H.
Qed.

(* The ghosts are created, then any number of times the processors change their particles (any changes fs) and update the
   ghosts. Any number of processors and particles. The outcome is the same under every schedule, there is no deadlock, all
   sends are received: afterwards every processor has its own particles, changed as it changed them, and for each
   neighbour in order the images of the neighbour's particles that sel selects, in the neighbour's order, with their current
   positions and velocities (and angular velocities). sel selects the particles that are closer than their cutoff to the region of
   the receiver, measured in the box with its boundary conditions (C53).
   What is missing for the full property: the number of ghosts is counted twice, see the refutation. *)
Theorem C39_ghosts_partial (bx : box) (P : nat) (dw : nat) (l : ghost_layout) (cut : part -> Q) (cbufs bufs : nat -> nat -> list word)
  (fs : list (nat -> part -> part)) (gs : list gproc) :
  (2 <= P)%nat -> nonempty (bounds_of bx) -> (List.length bx <= 4)%nat -> List.length gs = P ->
  (forall f k, In f fs -> keeps_shape (f k)) ->
  let t := topology_tree P (bounds_of bx) in
  (forall k g, nth_error gs k = Some g -> (st_size (g_own g) <= st_cap (g_own g))%nat /\ st_dims (g_own g) = List.length bx /\
    data_width (g_own g) = dw /\ Forall (shaped (g_own g)) (stored (g_own g)) /\ st_size (g_gho g) = 0%nat) ->
  (forall k j g h, nth_error gs k = Some g -> nth_error gs j = Some h -> same_layout (g_own g) (g_gho h)) ->
  (send_om l = true -> exists e, om_entry l = Some e /\ forall k g, nth_error gs k = Some g -> (e < 2 + st_nes (g_own g))%nat) ->
  let rounds := create_round bx t dw cut cbufs :: flat_map (fun f => [move_round f; update_round bx t l bufs]) fs in
  exists gs' sel, (forall eager, always_ends_in eager rounds gs gs') /\ List.length gs' = P /\
    (forall k g kb, nth_error gs k = Some g -> process_bounds k t = Some kb -> exists g', nth_error gs' k = Some g' /\
      g_own g' = all_moved fs k (g_own g) /\
      Forall2 (is_image bx l (center kb))
        (flat_map (fun n => match nth_error gs n with
                            | Some h => map (all_moves fs n) (filter (sel n k) (stored (g_own h)))
                            | None => [] end) (neighbor_ranks bx k t))
        (stored (g_gho g')) /\
      st_size (g_gho g') = List.length (stored (g_gho g'))) /\
    (forall n k kb p x, In k (neighbor_ranks bx n t) -> process_bounds k t = Some kb -> p_x p = map Some x -> in_closed bx x ->
       (sel n k p = true <-> within bx kb x (cut p))).
Proof.
  intros HP HB Hdim HL Hf t HI HLay Hom rounds.
  destruct (period_ready bx P t l HP HB eq_refl Hdim bufs dw cut cbufs fs gs Hf HL HI HLay Hom) as (OK & gs' & E & R & Im & Own & Us).
  exists gs', (nearto bx t cut). split; [|split; [exact (proj1 R)|split]].
  - intros eager. exact (rounds_every_schedule eager rounds gs gs' OK E).
  - intros k g kb Hk Hkb. destruct (Own k g Hk) as (g' & E1 & E2 & _). exists g'. split; [exact E1|]. split; [exact E2|]. split.
    + specialize (Im k g' kb E1 Hkb). rewrite (flat_map_ext_in _ (fun n => match nth_error gs n with
         | Some h => map (all_moves fs n) (filter (nearto bx t cut n k) (stored (g_own h))) | None => [] end)) in Im; [exact Im|].
      intros n Hn. pose proof (neighbor_lt bx P t HP HB eq_refl k n Hn) as Hlt. destruct (nth_error gs n) as [h|] eqn:En. 2:{ apply nth_error_None in En. lia. }
      rewrite (Us n k h En). replace (existsb (Nat.eqb k) (neighbor_ranks bx n t)) with true; [reflexivity|]. symmetry. apply existsb_exists. exists k.
      split; [exact (neighbor_sym bx P t HP HB eq_refl k n Hn)|apply Nat.eqb_refl].
    + destruct R as (_ & X & _). destruct (X k g' E1) as (_ & _ & _ & _ & F & _). unfold fits, st_cap in F. unfold stored. rewrite firstn_length. lia.
  - intros n k kb p x Hin Hkb Hx Hc. now apply (nearto_within bx P t cut n k kb p x HP HB eq_refl Hdim).
Qed.
Print Assumptions C39_ghosts_partial.

(* Two processors, a periodic box; the particle at 1/2 is near both sides of the other region. *)
Definition ex_box2 : box := [mkAxis 0 4 WRAP; mkAxis 0 2 OPEN].
Definition ex_part_at (x : list Q) : op := OpAdd (map Some x) [ex_num 1; ex_num 2] (ex_num 1) (ex_num 1) 0.
Definition ex_gs : list gproc := [mkG (ex_store [ex_part_at [1#2; 1]; ex_part_at [1; 1]]) ex_empty [] [] 0;
                                  mkG (ex_store [ex_part_at [5#2; 1]]) ex_empty [] [] 0].
Definition ex_shift (k : nat) (p : part) : part := match p_x p with
  | [Some a; b] => mkPart (p_type p) (p_gid p) [Some (Qred (a + (1#4))); b] (p_v p) (p_f p) (p_sg p) (p_im p) (p_evecs p) (p_escals p) (p_eints p)
  | _ => p end.
Example C39_hypotheses_met : nonempty (bounds_of ex_box2) /\
  (forall k, keeps_shape (ex_shift k)) /\
  (forall k g, nth_error ex_gs k = Some g -> (st_size (g_own g) <= st_cap (g_own g))%nat /\ st_dims (g_own g) = List.length ex_box2 /\
    data_width (g_own g) = 10%nat /\ Forall (shaped (g_own g)) (stored (g_own g)) /\ st_size (g_gho g) = 0%nat) /\
  (forall k j g h, nth_error ex_gs k = Some g -> nth_error ex_gs j = Some h -> same_layout (g_own g) (g_gho h)) /\
  let t := topology_tree 2 (bounds_of ex_box2) in
  let l := mkGL true false None in
  option_map (map (fun g => (map (fun p => map (option_map Qred) (p_x p)) (stored (g_own g)), map (fun p => map (option_map Qred) (p_x p)) (stored (g_gho g)))))
    (rounds_all (create_round ex_box2 t 10 (fun _ => 3#4) (fun _ _ => []) :: [move_round ex_shift; update_round ex_box2 t l (fun _ _ => [])]) ex_gs) =
  Some [([[Some (3#4); Some (1#1)]; [Some (5#4); Some (1#1)]], [[Some (11#4); Some (1#1)]]);
        ([[Some (11#4); Some (1#1)]], [[Some (19#4); Some (1#1)]])].
Proof.
  split; [|split; [|split; [|split]]].
  - split; [cbn; lia|]. intros m M [H|[H|[]]]; injection H as <- <-; reflexivity.
  - intros k p. unfold ex_shift. destruct (p_x p) as [|[a|] [|b [|c xs]]] eqn:E; cbn; rewrite ?E; auto.
  - intros k g Hk. apply nth_error_In in Hk. destruct Hk as [<-|[<-|[]]]; (split; [vm_compute; lia|split; [reflexivity|split; [reflexivity|split; [|reflexivity]]]]);
      vm_compute; repeat constructor; intros v Hv; destruct Hv.
  - intros k j g h Hk Hj. apply nth_error_In in Hk, Hj. destruct Hk as [<-|[<-|[]]]; destruct Hj as [<-|[<-|[]]]; vm_compute; auto.
  - vm_compute. reflexivity.
Qed.

(* Every message is received, whatever the order in which the processors proceed and whatever MPI buffers. *)
Theorem C37_every_send_is_received (bx : box) (P : nat) (dw : nat) (l : ghost_layout) (cut : part -> Q) (cbufs bufs : nat -> nat -> list word)
  (fs : list (nat -> part -> part)) (gs : list gproc) (eager : nat -> nat -> nat -> nat -> bool) :
  (2 <= P)%nat -> nonempty (bounds_of bx) -> (List.length bx <= 4)%nat -> List.length gs = P ->
  (forall f k, In f fs -> keeps_shape (f k)) ->
  let t := topology_tree P (bounds_of bx) in
  (forall k g, nth_error gs k = Some g -> (st_size (g_own g) <= st_cap (g_own g))%nat /\ st_dims (g_own g) = List.length bx /\
    data_width (g_own g) = dw /\ Forall (shaped (g_own g)) (stored (g_own g)) /\ st_size (g_gho g) = 0%nat) ->
  (forall k j g h, nth_error gs k = Some g -> nth_error gs j = Some h -> same_layout (g_own g) (g_gho h)) ->
  (send_om l = true -> exists e, om_entry l = Some e /\ forall k g, nth_error gs k = Some g -> (e < 2 + st_nes (g_own g))%nat) ->
  let rounds := create_round bx t dw cut cbufs :: flat_map (fun f => [move_round f; update_round bx t l bufs]) fs in
  exists N, forall v ps, execute eager pnext v (boot rounds gs) = Some ps ->
    (List.length v <= N)%nat /\
    ((forall k, pstep eager pnext k ps = None) -> all_received ps /\ forall k p, nth_error ps k = Some p -> exists g, pr_state p = PStart [] g).
Proof.
  intros HP HB Hdim HL Hf t HI HLay Hom rounds.
  destruct (C39_ghosts_partial bx P dw l cut cbufs bufs fs gs HP HB Hdim HL Hf HI HLay Hom) as (gs' & _ & H & _). destruct (H eager) as (N & HN). exists N. intros v ps E.
  destruct (HN v ps E) as (H1 & H2 & H3). split; [exact H1|]. intros St.
  assert (Ev : List.length v = N). { destruct (Nat.lt_ge_cases (List.length v) N) as [Hlt|]; [|lia]. destruct (H3 Hlt) as (k & ps' & X). now rewrite St in X. }
  destruct (H2 Ev) as [H4 H5]. split; [exact H5|]. intros k p Hp. assert (Hm : nth_error (map pr_state ps) k = Some (pr_state p)) by now rewrite nth_error_map, Hp.
  rewrite H4, nth_error_map in Hm. destruct (nth_error gs' k) as [g|]; [|discriminate]. cbn in Hm. injection Hm as Hm. eauto.
Qed.
Print Assumptions C37_every_send_is_received.

(* ---------- C39: the number ---------- *)

(* number() of the ghosts counts every ghost twice (unpacking counts, and create_ghost_particles counts again). *)
Theorem C39_number_refuted : exists bx gs gs' g', let t := topology_tree 2 (bounds_of bx) in
  rounds_all [create_round bx t 10 (fun _ => 3#4) (fun _ _ => [])] gs = Some gs' /\ nth_error gs' 1 = Some g' /\
  List.length (stored (g_gho g')) = 1%nat /\ st_number (g_gho g') = 2%Z.
Proof.
  exists ex_box2, ex_gs. eexists. eexists. split; [vm_compute; reflexivity|]. split; [reflexivity|]. split; reflexivity.
Qed.
Print Assumptions C39_number_refuted.

(* Removing the ghosts: none is left, number() is zero, the own particles are untouched. *)
Theorem C39_removal (gs gs' : list gproc) :
  round_all remove_ghosts_round gs = Some gs' ->
  List.length gs' = List.length gs /\
  forall k g, nth_error gs k = Some g -> exists g', nth_error gs' k = Some g' /\ g_own g' = g_own g /\
    stored (g_gho g') = [] /\ (st_size (g_gho g) <> 0%nat -> st_number (g_gho g') = 0%Z).
Proof.
  intros E. destruct (local_all (fun (_ : nat) g => Some (mkG (g_own g) (removeGhostParticles (g_gho g)) (g_send g) (g_sizes g) (g_at g))) gs) as (gs2 & E2 & L & S); [eauto|].
  assert (gs2 = gs') by (unfold remove_ghosts_round in E; congruence). subst gs2. split; [exact L|].
  intros k g Hk. destruct (S k g Hk) as (g' & Eg & Hg'). injection Eg as <-.
  eexists. split; [exact Hg'|]. split; [reflexivity|]. cbn [g_gho]. unfold removeGhostParticles. destruct (Nat.eqb_spec (st_size (g_gho g)) 0) as [E0|E0].
  - unfold stored. rewrite E0. split; [reflexivity|]. congruence.
  - split; reflexivity.
Qed.
Print Assumptions C39_removal.
Example C39_removal_case : exists gs gs', rounds_all [create_round ex_box2 (topology_tree 2 (bounds_of ex_box2)) 10 (fun _ => 3#4) (fun _ _ => [])] ex_gs = Some gs /\
  round_all remove_ghosts_round gs = Some gs' /\ map (fun g => List.length (stored (g_gho g))) gs = [1; 1]%nat /\
  map (fun g => List.length (stored (g_gho g))) gs' = [0; 0]%nat.
Proof. eexists. eexists. split; [vm_compute; reflexivity|]. split; [vm_compute; reflexivity|]. split; reflexivity. Qed.

(* ---------- C53 ---------- *)

(* After the creation of ghosts: a particle has an image on a neighbour exactly if it is closer than its cutoff to the
   neighbour's region; all ghosts are such images. *)
Theorem C53_ghosts_partial (bx : box) (P : nat) (dw : nat) (cut : part -> Q) (bufs : nat -> nat -> list word) (gs : list gproc) :
  (2 <= P)%nat -> nonempty (bounds_of bx) -> (List.length bx <= 4)%nat -> List.length gs = P ->
  let t := topology_tree P (bounds_of bx) in
  (forall k g, nth_error gs k = Some g -> (st_size (g_own g) <= st_cap (g_own g))%nat /\ st_dims (g_own g) = List.length bx /\
    data_width (g_own g) = dw /\ Forall (shaped (g_own g)) (stored (g_own g)) /\ st_size (g_gho g) = 0%nat /\
    forall p, In p (stored (g_own g)) -> exists x, p_x p = map Some x /\ in_closed bx x) ->
  (forall k j g h, nth_error gs k = Some g -> nth_error gs j = Some h -> same_layout (g_own g) (g_gho h)) ->
  exists gs', (forall eager, always_ends_in eager [create_round bx t dw cut bufs] gs gs') /\
    forall k g' kb, nth_error gs' k = Some g' -> process_bounds k t = Some kb ->
      (forall n g p x, In n (neighbor_ranks bx k t) -> nth_error gs n = Some g -> In p (stored (g_own g)) -> p_x p = map Some x -> within bx kb x (cut p) ->
         exists q, In q (stored (g_gho g')) /\ p_x q = relative_position bx (p_x p) (center kb) /\ p_v q = p_v p) /\
      (forall q, In q (stored (g_gho g')) -> exists n g p x, In n (neighbor_ranks bx k t) /\ nth_error gs n = Some g /\ In p (stored (g_own g)) /\
         p_x p = map Some x /\ within bx kb x (cut p) /\ p_x q = relative_position bx (p_x p) (center kb) /\ p_v q = p_v p).
Proof.
  intros HP HB Hdim HL t HI HLay.
  destruct (C39_ghosts_partial bx P dw (mkGL true false None) cut bufs bufs [] gs HP HB Hdim HL) as (gs' & sel & H1 & H2 & H3 & H4).
  { intros f k []. }
  { intros k g Hk. destruct (HI k g Hk) as (A1 & A2 & A3 & A4 & A5 & _). auto. }
  { exact HLay. }
  { discriminate. }
  exists gs'. split; [exact H1|]. intros k g' kb Hk Hkb.
  destruct (nth_error gs k) as [g|] eqn:Eg. 2:{ apply nth_error_None in Eg. assert (k < List.length gs')%nat by (apply nth_error_Some; congruence). lia. }
  destruct (H3 k g kb Eg Hkb) as (g2 & G1 & _ & G2 & _). assert (g2 = g') by congruence. subst g2. split.
  - intros n gn p x Hn Hgn Hp Hx Hw. destruct (HI n gn Hgn) as (_ & _ & _ & _ & _ & Hpos). destruct (Hpos p Hp) as (x2 & Hx2 & Hc).
    assert (x2 = x). { rewrite Hx in Hx2. clear - Hx2. revert x2 Hx2. induction x as [|a x IH]; intros [|b x2] H; cbn in H; try discriminate; [reflexivity|]. injection H as -> H. f_equal. now apply IH. }
    subst x2. assert (Hs : sel n k p = true). { apply (H4 n k kb p x); auto. exact (neighbor_sym bx P t HP HB eq_refl k n Hn). }
    assert (Hin : In p (flat_map (fun n => match nth_error gs n with Some h => map (all_moves [] n) (filter (sel n k) (stored (g_own h))) | None => [] end) (neighbor_ranks bx k t))).
    { apply in_flat_map. exists n. split; [exact Hn|]. rewrite Hgn. apply in_map_iff. exists p. split; [reflexivity|]. now apply filter_In. }
    apply In_nth_error in Hin as [i Hi]. destruct (Forall2_nth _ _ _ G2 i p Hi) as (q & Hq & Q1 & Q2 & _). exists q. split; [eapply nth_error_In; eauto|]. split; [exact Q1|now apply Q2].
  - intros q Hq. apply In_nth_error in Hq as [i Hi].
    destruct (nth_error (flat_map (fun n => match nth_error gs n with Some h => map (all_moves [] n) (filter (sel n k) (stored (g_own h))) | None => [] end) (neighbor_ranks bx k t)) i) as [p|] eqn:Ep.
    2:{ apply nth_error_None in Ep. apply Forall2_len in G2. assert (Hlt : (i < List.length (stored (g_gho g')))%nat) by (apply nth_error_Some; congruence). rewrite <- G2 in Hlt. exact (False_ind _ (Nat.lt_irrefl _ (Nat.lt_le_trans _ _ _ Hlt Ep))). }
    destruct (Forall2_nth _ _ _ G2 i p Ep) as (q2 & Hq2 & Q1 & Q2 & _). assert (q2 = q) by congruence. subst q2.
    apply nth_error_In in Ep. apply in_flat_map in Ep as (n & Hn & Hp). destruct (nth_error gs n) as [gn|] eqn:En; [|destruct Hp].
    apply in_map_iff in Hp as (p0 & E0 & Hp). cbn in E0. subst p0. apply filter_In in Hp as [Hp Hs]. destruct (HI n gn En) as (_ & _ & _ & _ & _ & Hpos).
    destruct (Hpos p Hp) as (x & Hx & Hc). exists n, gn, p, x. split; [exact Hn|]. split; [exact En|]. split; [exact Hp|]. split; [exact Hx|].
    split; [|split; [exact Q1|now apply Q2]]. apply (H4 n k kb p x); auto. exact (neighbor_sym bx P t HP HB eq_refl k n Hn).
Qed.
Print Assumptions C53_ghosts_partial.
Example C53_hypotheses_met : forall k g, nth_error ex_gs k = Some g -> forall p, In p (stored (g_own g)) -> exists x, p_x p = map Some x /\ in_closed ex_box2 x.
Proof.
  intros k g Hk. apply nth_error_In in Hk.
  destruct Hk as [<-|[<-|[]]]; vm_compute stored; intros p Hp; repeat (destruct Hp as [<-|Hp]); try destruct Hp;
    [exists [1#2; 1]|exists [1; 1]|exists [5#2; 1]]; (split; [reflexivity|]); repeat constructor; vm_compute; discriminate.
Qed.

(* A region that is within the cutoff of a particle but does not touch the particle's processor gets no ghost. *)
Theorem C53_far_region_refuted : exists bx gs gs' g p x kb g', let t := topology_tree 4 (bounds_of bx) in
  rounds_all [create_round bx t 7 (fun _ => 3#2) (fun _ _ => [])] gs = Some gs' /\
  nth_error gs 0 = Some g /\ In p (stored (g_own g)) /\ p_x p = map Some x /\
  process_bounds 2 t = Some kb /\ within bx kb x (3#2) /\ nth_error gs' 2 = Some g' /\ stored (g_gho g') = [].
Proof.
  exists [mkAxis 0 4 OPEN].
  exists [mkG (match run [OpAdd [Some (9#10)] [ex_num 0] (ex_num 1) (ex_num 1) 0] (empty_store 1 0 0 0) with Some s => s | None => empty_store 1 0 0 0 end) (empty_store 1 0 0 0) [] [] 0;
          mkG (empty_store 1 0 0 0) (empty_store 1 0 0 0) [] [] 0; mkG (empty_store 1 0 0 0) (empty_store 1 0 0 0) [] [] 0; mkG (empty_store 1 0 0 0) (empty_store 1 0 0 0) [] [] 0].
  eexists. eexists. eexists. exists [9#10]. eexists. eexists.
  split; [vm_compute; reflexivity|]. split; [reflexivity|]. split; [vm_compute; left; reflexivity|]. split; [reflexivity|]. split; [vm_compute; reflexivity|].
  split; [|split; [reflexivity|reflexivity]].
  split; [reflexivity|]. exists [0%Z], [2]. split; [reflexivity|]. split; [repeat constructor; vm_compute; discriminate|]. vm_compute. reflexivity.
Qed.
Print Assumptions C53_far_region_refuted.

(* More than four dimensions: the search writes outside its arrays. *)
Theorem C53_dimensions_refuted (bx : box) (P dw : nat) (cut : part -> Q) (bufs : nat -> nat -> list word) (gs : list gproc) :
  (4 < List.length bx)%nat -> (1 <= List.length gs)%nat -> round_all (create_round bx (topology_tree P (bounds_of bx)) dw cut bufs) gs = None.
Proof.
  intros H Hl. destruct gs as [|g gs]; [cbn in Hl; lia|]. unfold round_all. cbn [List.length seq combine map fst snd r_local create_round sequence].
  unfold create_local at 1. destruct (Nat.ltb_spec 4 (List.length bx)); [reflexivity|lia].
Qed.
Print Assumptions C53_dimensions_refuted.

(* ---------- C54 ---------- *)

(* Gathering position data on processor 0: any number of processors and amounts of data (also none), every schedule. No
   deadlock; processor 0 ends with its own data followed by that of the others in the order of their ranks, the others
   keep theirs. *)
Theorem C54_gather (eager : nat -> nat -> nat -> nat -> bool) (d0 : list Q) (rest : list (list Q)) :
  exists N, forall v ps, execute eager (gnext (S (List.length rest))) v (gboot (d0 :: rest)) = Some ps ->
    (List.length v <= N)%nat /\
    ((forall k, pstep eager (gnext (S (List.length rest))) k ps = None) ->
       map pr_state ps = GDone (d0 ++ concat rest) :: map GDone rest).
Proof. exact (gather_all eager d0 rest). Qed.
Print Assumptions C54_gather.
(* A run to the end with three processors, the second of which has nothing to send. *)
Example C54_case : exists v ps, execute (fun _ _ _ _ => true) (gnext 3) v (gboot [[1]; []; [2; 3]]) = Some ps /\
  map pr_state ps = [GDone [1; 2; 3]; GDone []; GDone [2; 3]] /\ forall k, pstep (fun _ _ _ _ => true) (gnext 3) k ps = None.
Proof.
  exists [1; 1; 1; 2; 2; 2; 2; 0; 0; 0; 0; 0; 0]%nat. eexists. split; [vm_compute; reflexivity|]. split; [reflexivity|].
  intros [|[|[|k]]]; try reflexivity. destruct k; reflexivity.
Qed.

(* ---------- C52 ---------- *)

(* A size is announced correctly if MPI reads it before the memory is used again (as it does for messages it buffers):
   the only value read for call number i is the size of that call. *)
Theorem C52_announced_partial (slot n : nat) (before between after : list event) (i : nat) :
  i = List.length (sizes_of before) ->
  (forall e, In e between -> exists j, e = Transport j /\ j <> i) -> (forall e, In e before \/ In e after -> e <> Transport i) ->
  let evs := before ++ Call n :: between ++ Transport i :: after in
  nth_error (sizes_of evs) i = Some n /\ forall v, In (i, v) (announced slot evs) <-> v = n.
Proof.
  intros Hi Hb Ho evs. unfold evs. split.
  { unfold sizes_of. rewrite flat_map_app. unfold sizes_of in Hi. rewrite nth_error_app2 by lia. subst i. now rewrite Nat.sub_diag. }
  clear Hi evs. intros v.
  assert (NoB : forall evs s, (forall e, In e evs -> e <> Transport i) -> ~ In (i, v) (announced s evs)).
  { induction evs as [|e evs IH]; intros s H; [intros []|]. destruct e as [m|m|j]; cbn [announced].
    - apply IH. intros e He. apply H. now right.
    - apply IH. intros e He. apply H. now right.
    - intros [X|X]; [|revert X; apply IH; intros e He; apply H; now right]. injection X as -> _. apply (H (Transport i)); [now left|reflexivity]. }
  assert (Mid : forall between, (forall e, In e between -> exists j, e = Transport j /\ j <> i) -> In (i, v) (announced n (between ++ Transport i :: after)) <-> v = n).
  { clear Hb between. induction between as [|e between IH]; intros Hb; cbn [app announced].
    - split; [|intros ->; now left]. intros [X|X]; [now injection X|]. exfalso. revert X. apply NoB. intros e He. apply Ho. now right.
    - destruct (Hb e (or_introl eq_refl)) as (j & -> & Hj). cbn [announced]. rewrite <- IH by (intros e He; apply Hb; now right). split; [intros [X|X]; [congruence|exact X]|now right]. }
  revert slot. induction before as [|e before IH]; intros s; cbn [app].
  - cbn [announced]. now apply Mid.
  - assert (IH' : forall s, In (i, v) (announced s (before ++ Call n :: between ++ Transport i :: after)) <-> v = n).
    { apply IH. intros e0 [He|He]; apply Ho; [left; now right|now right]. }
    destruct e as [m|m|j]; cbn [announced]; try apply IH'. rewrite <- (IH' s). split; [|now right]. intros [X|X]; [|exact X].
    exfalso. injection X as -> _. apply (Ho (Transport i)); [left; now left|reflexivity].
Qed.
Print Assumptions C52_announced_partial.
Example C52_hypotheses_met : announced 0 [Call 3; Transport 0; Call 5; Transport 1; Reuse 7] = [(0, 3); (1, 5)]%nat.
Proof. reflexivity. Qed.
(* Otherwise the first neighbour is told the size of the second message. *)
Theorem C52_late_refuted : exists evs, sizes_of evs = [3; 5]%nat /\ In (0, 5)%nat (announced 0 evs) /\ ~ In (0, 3)%nat (announced 0 evs).
Proof. exists [Call 3; Call 5; Transport 0; Transport 1]. cbn. split; [reflexivity|]. split; [now left|]. intros [H|[H|[]]]; discriminate. Qed.
Print Assumptions C52_late_refuted.
(* Nor is the last size safe: after the loop the memory may be overwritten before MPI reads it. *)
Theorem C52_overwritten_refuted : exists evs, sizes_of evs = [3]%nat /\ In (0, 9)%nat (announced 0 evs) /\ ~ In (0, 3)%nat (announced 0 evs).
Proof. exists [Call 3; Reuse 9; Transport 0]. cbn. split; [reflexivity|]. split; [now left|]. intros [H|[]]; discriminate. Qed.
Print Assumptions C52_overwritten_refuted.
