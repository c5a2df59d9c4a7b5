(* C148: the recorded net force on a group of particles, on any number of processors. *)
From Verif Require Import Lib Model_Geometry Model_Store Model_Buffer Model_Group Model_Topology Spec_Geometry Spec_Store Spec_Topology
  Properties_Store Properties_Topology Model_NetForce Spec_NetForce Proofs_NetForce.
From Verif Require Model_Series Spec_Series Properties_Series.
Local Open Scope Z_scope.

(* Exactly what is recorded: at each recording, the sum over the processors of the forces on those of the ids added there whose
   particles were alive on that same processor at this and at every earlier recording; and these are the members that are left. *)
Theorem C148_recorded (P dims : nat) (ids : nat -> list Z) (h : list (Q * (nat -> store))) :
  (0 < P)%nat -> (0 < dims)%nat -> h <> [] ->
  (forall e k, In e h -> (k < P)%nat -> lookup_exact (snd e k) /\ forces_known dims (snd e k)) ->
  (forall e k, hd_error h = Some e -> (k < P)%nat -> st_locals (snd e k) = true) ->
  (forall h1 e e' h2 k, h = h1 ++ e :: e' :: h2 -> (k < P)%nat -> told (ids k) (snd e k) (snd e' k)) ->
  exists st0 gs m, start P dims ids = Some st0 /\ recordings P h st0 = Some (gs, m) /\
    (forall k, (k < P)%nat -> exists g, nth_error gs k = Some g /\ g_gids g = filter (fun id => forallb (fun e => is_on (snd e k) id) h) (ids k)) /\
    forall d, (d < dims)%nat -> length (Model_Series.getEntry (Z.of_nat d) m) = length h /\
      forall j e, nth_error h j = Some e -> exists v, nth_error (Model_Series.getEntry (Z.of_nat d) m) j = Some (fst e, v) /\
        (v == qsum (map (fun k => qsum (map (fun id => force_on_id (snd e k) id d)
                (filter (fun id => forallb (fun e' => is_on (snd e' k) id) (firstn (S j) h)) (ids k)))) (seq 0 P)))%Q.
Proof.
  intros HP HD Hn A B C. destruct (run_ok P dims ids HP HD h (conj A (conj B C)) Hn) as (st0 & m & rows & el & hl & E1 & Eh & Er & Hh & Lr & Rr).
  exists st0, (map (fun k => Proofs_NetForce.grp (snd el k) (stayed h k (ids k))) (seq 0 P)), m. split; [exact E1|]. split; [exact Er|]. split.
  - intros k Hk. eexists. split; [rewrite nth_error_map, (nth_error_nth' (seq 0 P) 0%nat) by (rewrite seq_length; exact Hk); rewrite seq_nth by exact Hk; reflexivity|]. reflexivity.
  - intros d Hd. destruct (Properties_Series.C49_read_partial m dims rows Hh) as (G & _).
    destruct (G (Z.of_nat d)) as (Eg & _); [lia|]. rewrite Eg, Nat2Z.id. split; [rewrite map_length; exact Lr|].
    intros j e Hj. destruct (Rr j e Hj) as (r & Er2 & (F1 & F2)). exists (nth d (snd r) 0%Q). split.
    + rewrite <- F1. exact (map_nth_error (fun r : Spec_Series.row => (fst r, nth d (snd r) 0%Q)) j rows Er2).
    + specialize (F2 d Hd). unfold stayed in F2. 
      assert (E : firstn (S j) h = firstn j h ++ [e]).
      { clear - Hj. revert j Hj. induction h as [|a h IH]; intros [|j] Hj; try discriminate; [injection Hj as ->; reflexivity|].
        cbn [nth_error] in Hj. specialize (IH j Hj). cbn [firstn] in *. rewrite IH. reflexivity. }
      rewrite E. exact F2.
Qed.
Print Assumptions C148_recorded.

Lemma not_on_zero s id d : is_on s id = false -> force_on_id s id d = 0%Q.
Proof.
  unfold is_on, force_on_id. destruct (find _ _) as [p|] eqn:E; [|reflexivity]. intros H. apply find_some in E as [Hi Hp].
  assert (existsb (fun p => aliveb p && (p_gid p =? id)) (firstn (st_size s) (st_mem s)) = true) by (apply existsb_exists; exists p; split; assumption). congruence.
Qed.
Lemma qsum_zero l : Forall (fun q => q = 0%Q) l -> (qsum l == 0)%Q.
Proof. induction 1; [reflexivity|]. subst. cbn. unfold qsum in IHForall. rewrite IHForall. reflexivity. Qed.
Lemma qsum_single (f : nat -> Q) k n : forall a, (a <= k < a + n)%nat -> (forall k', k' <> k -> f k' = 0%Q) -> (qsum (map f (seq a n)) == f k)%Q.
Proof.
  induction n as [|n IH]; intros a Hk H0; [lia|]. cbn [seq map]. change (qsum (f a :: map f (seq (S a) n))) with (f a + qsum (map f (seq (S a) n)))%Q.
  destruct (Nat.eq_dec a k) as [->|Ne].
  - rewrite qsum_zero; [ring|]. apply Forall_forall. intros q Hq. apply in_map_iff in Hq as (k' & <- & Hk'). apply in_seq in Hk'. apply H0. lia.
  - rewrite (H0 a Ne), IH by (try lia; exact H0). ring.
Qed.
Lemma qsum_app x y : (qsum (x ++ y) == qsum x + qsum y)%Q.
Proof. unfold qsum. induction x as [|a x IH]; cbn [app fold_right]; [symmetry; apply Qplus_0_l|]. rewrite IH. apply Qplus_assoc. Qed.
Lemma qsum_map_ext {A} (f g : A -> Q) l : (forall a, In a l -> f a == g a)%Q -> (qsum (map f l) == qsum (map g l))%Q.
Proof.
  intros H. apply qsum_ext. induction l as [|a l IH]; [constructor|]. cbn. constructor; [apply H; left; reflexivity|]. apply IH. intros b Hb. apply H. right. exact Hb.
Qed.

(* The recorded value is the sum of the forces on all living members, wherever they are, as long as no member is ever on another
   processor than the one that added it (and no dead member comes back). Missing: members that move to another processor
   (C148_moved_refuted). *)
Theorem C148_total_partial (P dims : nat) (ids : nat -> list Z) (h : list (Q * (nat -> store))) :
  (0 < P)%nat -> (0 < dims)%nat -> h <> [] ->
  (forall e k, In e h -> (k < P)%nat -> lookup_exact (snd e k) /\ forces_known dims (snd e k)) ->
  (forall e k, hd_error h = Some e -> (k < P)%nat -> st_locals (snd e k) = true) ->
  (forall h1 e e' h2 k, h = h1 ++ e :: e' :: h2 -> (k < P)%nat -> told (ids k) (snd e k) (snd e' k)) ->
  (forall e k k' id, In e h -> (k < P)%nat -> (k' < P)%nat -> In id (ids k) -> is_on (snd e k') id = true -> k' = k) ->
  (forall i j e e' k id, (i <= j)%nat -> nth_error h i = Some e -> nth_error h j = Some e' -> (k < P)%nat -> In id (ids k) ->
     is_on (snd e' k) id = true -> is_on (snd e k) id = true) ->
  exists st0 gs m, start P dims ids = Some st0 /\ recordings P h st0 = Some (gs, m) /\
    forall d, (d < dims)%nat -> length (Model_Series.getEntry (Z.of_nat d) m) = length h /\
      forall j e, nth_error h j = Some e -> exists v, nth_error (Model_Series.getEntry (Z.of_nat d) m) j = Some (fst e, v) /\
        (v == qsum (map (fun id => qsum (map (fun k => force_on_id (snd e k) id d) (seq 0 P))) (flat_map ids (seq 0 P))))%Q.
Proof.
  intros HP HD Hn A B C M R. destruct (C148_recorded P dims ids h HP HD Hn A B C) as (st0 & gs & m & E1 & E2 & _ & G).
  exists st0, gs, m. split; [exact E1|]. split; [exact E2|]. intros d Hd. destruct (G d Hd) as (L & V). split; [exact L|].
  intros j e Hj. destruct (V j e Hj) as (v & Ev & Hv). exists v. split; [exact Ev|]. rewrite Hv. clear Hv Ev v V G.
  assert (He : In e h) by (eapply nth_error_In; exact Hj).
  assert (EF : forall (f : Z -> Q) l, (qsum (map f (flat_map ids l)) == qsum (map (fun k => qsum (map f (ids k))) l))%Q).
  { intros f l. induction l as [|k l IH]; [reflexivity|]. cbn [flat_map map]. rewrite map_app.
    change (qsum (qsum (map f (ids k)) :: map (fun k => qsum (map f (ids k))) l)) with (qsum (map f (ids k)) + qsum (map (fun k => qsum (map f (ids k))) l))%Q.
    rewrite <- IH. apply qsum_app. }
  rewrite EF. clear EF. apply qsum_map_ext. intros k Hk. apply in_seq in Hk. assert (Hk' : (k < P)%nat) by lia. clear Hk.
  assert (HE : forall id, In id (ids k) -> is_on (snd e k) id = true -> forallb (fun e' => is_on (snd e' k) id) (firstn (S j) h) = true).
  { intros id Hi Ho. apply forallb_forall. intros e' He'. apply In_nth_error in He' as (i & Hi').
    assert (Li : (i < length (firstn (S j) h))%nat) by (apply nth_error_Some; congruence). rewrite firstn_length in Li.
    apply (R i j e' e k id); [lia| |exact Hj|exact Hk'|exact Hi|exact Ho].
    rewrite <- (firstn_skipn (S j) h), nth_error_app1 by (rewrite firstn_length; lia). exact Hi'. }
  assert (H1 : forall l, incl l (ids k) -> (qsum (map (fun id => force_on_id (snd e k) id d) (filter (fun id => forallb (fun e' => is_on (snd e' k) id) (firstn (S j) h)) l)) ==
     qsum (map (fun id => qsum (map (fun k0 => force_on_id (snd e k0) id d) (seq 0 P))) l))%Q).
  { induction l as [|id l IH]; intros Hl; [reflexivity|].
    assert (Hi : In id (ids k)) by (apply Hl; left; reflexivity).
    assert (Hl' : incl l (ids k)) by (intros a Ha; apply Hl; right; exact Ha).
    assert (S1 : (qsum (map (fun k0 => force_on_id (snd e k0) id d) (seq 0 P)) == force_on_id (snd e k) id d)%Q).
    { rewrite (qsum_map_ext _ (fun k0 => if (k0 =? k)%nat then force_on_id (snd e k0) id d else 0%Q)).
      - rewrite (qsum_single (fun k0 => if (k0 =? k)%nat then force_on_id (snd e k0) id d else 0%Q) k P 0); [rewrite Nat.eqb_refl; reflexivity|lia|].
        intros k' Ne. apply Nat.eqb_neq in Ne. now rewrite Ne.
      - intros k0 H0. apply in_seq in H0. destruct (k0 =? k)%nat eqn:E0; [reflexivity|]. apply Nat.eqb_neq in E0.
        rewrite not_on_zero; [reflexivity|]. destruct (is_on (snd e k0) id) eqn:Eo; [|reflexivity]. exfalso. apply E0. apply (M e k k0 id He Hk'); [lia|exact Hi|exact Eo]. }
    cbn [map filter].
    match goal with |- (_ == qsum (?a :: ?b))%Q => change (qsum (a :: b)) with (a + qsum b)%Q end.
    rewrite S1, <- (IH Hl').
    destruct (forallb (fun e' => is_on (snd e' k) id) (firstn (S j) h)) eqn:Ef; [reflexivity|].
    rewrite (not_on_zero (snd e k) id d); [ring|]. destruct (is_on (snd e k) id) eqn:Eo; [|reflexivity]. rewrite (HE id Hi Eo) in Ef. discriminate. }
  apply H1, incl_refl.
Qed.
Print Assumptions C148_total_partial.

(* ---------- a case: two processors, two recordings; between them a member dies, and the particles of processor 0 are stored anew ---------- *)
Definition ex_nf (l : list op) : store := match allowedb_run l ex_empty with Some s => s | None => ex_empty end.
Lemma ex_nf_exact l : Forall id_op l -> lookup_exact (ex_nf l).
Proof.
  intros H. unfold ex_nf. destruct (allowedb_run l ex_empty) as [s|] eqn:E.
  - apply (C02_lookup_exact_partial 2 0 0 0). apply (allowedb_reach_ids l _ ex_empty s); [constructor|exact H|exact E].
  - apply (C02_lookup_exact_partial 2 0 0 0). constructor.
Qed.
Definition ex_opsA : list op := [ex_add 1 1; ex_add 3 1; OpSort; OpSetF 0 [ex_num 5; ex_num 0]; OpSetF 1 [ex_num 7; ex_num 1]].
Definition ex_opsA' : list op := ex_opsA ++ [OpMark 0; OpRemove; OpSetF 0 [ex_num 8; ex_num 1]].
Definition ex_opsB : list op := [ex_add 3 0; ex_add 3 1; ex_add 2 1; OpMark 0; OpMark 1; OpRemove; OpSetF 0 [ex_num 4; ex_num 2]].
Definition ex_stA : store := Eval vm_compute in ex_nf ex_opsA.
Definition ex_stA' : store := Eval vm_compute in ex_nf ex_opsA'.
Definition ex_stB : store := Eval vm_compute in ex_nf ex_opsB.
Definition ex_ids (k : nat) : list Z := match k with O => [0; 2] | _ => [4] end.
Definition ex_hist : list (Q * (nat -> store)) :=
  [(1%Q, fun k => match k with O => ex_stA | _ => ex_stB end); (2%Q, fun k => match k with O => ex_stA' | _ => set_flags false false ex_stB end)].

Lemma ex_forces s : st_dims s = 2%nat -> forallb (fun p => (length (p_f p) =? 2)%nat && forallb (fun a => match a with None => false | _ => true end) (p_f p)) (firstn (st_size s) (st_mem s)) = true ->
  forces_known 2 s.
Proof.
  intros D F. split; [exact D|]. intros p Hp. rewrite forallb_forall in F. specialize (F p Hp). apply andb_prop in F as [L N].
  apply Nat.eqb_eq in L. split; [exact L|]. intros Hi. rewrite forallb_forall in N. specialize (N None Hi). discriminate.
Qed.
Example C148_case :
  (forall e k, In e ex_hist -> (k < 2)%nat -> lookup_exact (snd e k) /\ forces_known 2 (snd e k)) /\
  (forall e k, hd_error ex_hist = Some e -> (k < 2)%nat -> st_locals (snd e k) = true) /\
  (forall h1 e e' h2 k, ex_hist = h1 ++ e :: e' :: h2 -> (k < 2)%nat -> told (ex_ids k) (snd e k) (snd e' k)) /\
  (forall e k k' id, In e ex_hist -> (k < 2)%nat -> (k' < 2)%nat -> In id (ex_ids k) -> is_on (snd e k') id = true -> k' = k) /\
  (forall i j e e' k id, (i <= j)%nat -> nth_error ex_hist i = Some e -> nth_error ex_hist j = Some e' -> (k < 2)%nat -> In id (ex_ids k) ->
     is_on (snd e' k) id = true -> is_on (snd e k) id = true) /\
  exists st0 gs m, start 2 2 ex_ids = Some st0 /\ recordings 2 ex_hist st0 = Some (gs, m) /\ map g_gids gs = [[2]; [4]] /\
    map (map Qred) (Model_Series.lines m) = [[1; 16; 3]; [2; 12; 3]]%Q.
Proof.
  assert (XA : lookup_exact ex_stA) by (apply (ex_nf_exact ex_opsA); repeat constructor).
  assert (XA' : lookup_exact ex_stA') by (apply (ex_nf_exact ex_opsA'); repeat constructor).
  assert (XB : lookup_exact ex_stB) by (apply (ex_nf_exact ex_opsB); repeat constructor).
  split; [|split; [|split; [|split; [|split]]]].
  - intros e k [<-|[<-|[]]] Hk; cbn [snd]; (destruct k as [|[|k]]; [| |lia]); (split; [|apply ex_forces; vm_compute; reflexivity]);
      [exact XA|exact XB|exact XA'|exact XB].
  - intros e k H Hk. injection H as <-. destruct k as [|[|k]]; [reflexivity|reflexivity|lia].
  - intros h1 e e' h2 k E Hk. destruct h1 as [|a [|b [|c h1]]]; cbn in E; try (injection E; intros; discriminate).
    + injection E as <- <- _. cbn [snd]. destruct k as [|[|k]]; [left; reflexivity| |lia]. right. intros id l _. reflexivity.
  - intros e k k' id [<-|[<-|[]]] Hk Hk' Hi Ho; (destruct k as [|[|k]]; [| |lia]); (destruct k' as [|[|k']]; [| |lia]); try reflexivity; exfalso;
      cbn in Hi; repeat (destruct Hi as [<-|Hi]; [vm_compute in Ho; discriminate|]); exact Hi.
  - intros i j e e' k id Hij Ei Ej Hk Hi Ho.
    destruct i as [|[|i]]; [| |destruct i; discriminate]; (destruct j as [|[|j]]; [| |destruct j; discriminate]); try lia;
      injection Ei as <-; injection Ej as <-; try exact Ho; (destruct k as [|[|k]]; [| |lia]); cbn in Hi;
      repeat (destruct Hi as [<-|Hi]; [vm_compute; reflexivity|]); exfalso; exact Hi.
  - eexists _, _, _. split; [vm_compute; reflexivity|]. split; [vm_compute; reflexivity|]. split; vm_compute; reflexivity.
Qed.
Print Assumptions C148_case.

(* A member that moves to another processor with the exchange of particles is alive, and is no longer counted on any processor:
   of the total force 16 at the second recording, 9 is recorded. *)
Definition ex_bx : box := [mkAxis 0 4 OPEN; mkAxis 0 2 OPEN].
Theorem C148_moved_refuted : exists ss', 
  exchange_all ex_bx (topology_tree 2 (bounds_of ex_bx)) 10 (fun _ _ => []) [ex_stA; ex_stB] = Some ss' /\
  let h := [(1, fun k => nth k [ex_stA; ex_stB] ex_empty); (2, fun k => nth k ss' ex_empty)]%Q in
  is_on (nth 0 ss' ex_empty) 2 = false /\ is_on (nth 1 ss' ex_empty) 2 = true /\
  (exists st0 gs m, start 2 2 ex_ids = Some st0 /\ recordings 2 h st0 = Some (gs, m) /\ map g_gids gs = [[0]; [4]] /\
     map (map Qred) (Model_Series.lines m) = [[1; 16; 3]; [2; 9; 2]]%Q) /\
  (qsum (map (fun id => qsum (map (fun k => force_on_id (nth k ss' ex_empty) id 0) [0; 1]%nat)) [0; 2; 4]%Z) == 16)%Q.
Proof.
  eexists. split; [vm_compute; reflexivity|]. cbv zeta. split; [vm_compute; reflexivity|]. split; [vm_compute; reflexivity|]. split.
  - eexists _, _, _. split; [vm_compute; reflexivity|]. split; [vm_compute; reflexivity|]. split; vm_compute; reflexivity.
  - vm_compute. reflexivity.
Qed.
Print Assumptions C148_moved_refuted.
