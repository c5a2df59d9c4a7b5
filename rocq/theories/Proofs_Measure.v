(* Proofs for C74-C77. *)
From Coq Require Import QArith List Bool ZArith Lia Lqa Permutation Setoid.
From Verif Require Import Lib Model_Measure Spec_Measure.
Import ListNotations.
Local Open Scope Q_scope.

Lemma Sum_app {A} (f : A -> Q) a b : Sum f (a ++ b) == Sum f a + Sum f b.
Proof. induction a as [|x a IH]; cbn [app Sum]; [ring|]. rewrite IH. ring. Qed.
Lemma Sum_ext {A} (f g : A -> Q) l : (forall a, In a l -> f a == g a) -> Sum f l == Sum g l.
Proof. induction l as [|a l IH]; intros H; [reflexivity|]. cbn [Sum]. rewrite (H a (or_introl eq_refl)), IH; [reflexivity|]. intros; apply H; now right. Qed.
Lemma Sum_scale {A} (f : A -> Q) c l : Sum (fun a => c * f a) l == c * Sum f l.
Proof. induction l as [|a l IH]; cbn [Sum]; [ring|]. rewrite IH. ring. Qed.
Lemma Sum_plus {A} (f g : A -> Q) l : Sum (fun a => f a + g a) l == Sum f l + Sum g l.
Proof. induction l as [|a l IH]; cbn [Sum]; [ring|]. rewrite IH. ring. Qed.
Lemma Sum_perm {A} (f : A -> Q) l l' : Permutation l l' -> Sum f l == Sum f l'.
Proof. induction 1 as [|a l l' P IH|a b l|l1 l2 l3 P1 IH1 P2 IH2]; cbn [Sum]; [reflexivity|now rewrite IH|ring|now rewrite IH1]. Qed.
Lemma Sum_map {A B} (f : B -> Q) (g : A -> B) l : Sum f (map g l) == Sum (fun a => f (g a)) l.
Proof. induction l as [|a l IH]; cbn [Sum map]; [reflexivity|]. now rewrite IH. Qed.
Lemma Sum_one {A} (l : list A) : Sum (fun _ => 1) l == number l.
Proof. unfold number. induction l as [|a l IH]; [reflexivity|]. cbn [Sum length]. rewrite IH, Nat2Z.inj_succ. unfold Z.succ. rewrite inject_Z_plus. ring. Qed.
Lemma Sum_nonneg {A} (f : A -> Q) l : (forall a, In a l -> 0 <= f a) -> 0 <= Sum f l.
Proof. induction l as [|a l IH]; intros H; cbn [Sum]; [lra|]. assert (H1 := H a (or_introl eq_refl)). specialize (IH (fun b Hb => H b (or_intror Hb))). lra. Qed.
Lemma fold_Sum {A} (f : A -> Q) l : forall s, fold_left (fun a x => a + f x) l s == s + Sum f l.
Proof. induction l as [|a l IH]; intros s; cbn [fold_left Sum]; [ring|]. rewrite IH. ring. Qed.
Lemma filter_perm {A} (f : A -> bool) l l' : Permutation l l' -> Permutation (filter f l) (filter f l').
Proof. induction 1 as [|a l l' P IH|a b l|l1 l2 l3 P1 IH1 P2 IH2]; cbn [filter]; [constructor|destruct (f a); [now constructor|exact IH]|destruct (f a), (f b); try constructor; apply Permutation_refl|eapply Permutation_trans; eassumption]. Qed.
Lemma filter_filter {A} (f g : A -> bool) l : filter f (filter g l) = filter (fun a => g a && f a) l.
Proof. induction l as [|a l IH]; [reflexivity|]. cbn [filter]. destruct (g a) eqn:E; cbn [filter andb]; [|exact IH]. destruct (f a); now rewrite IH. Qed.

Lemma sqr_Sum v : sqr v == Sum (fun c => c * c) v.
Proof. unfold sqr. rewrite fold_Sum. ring. Qed.
Lemma loop_Sum keep val l : loop keep val l == Sum val (filter keep l).
Proof.
  unfold loop. assert (G : forall s, fold_left (fun a x => if keep x then a + val x else a) l s == s + Sum val (filter keep l)).
  { induction l as [|x l IH]; intros s; cbn [fold_left filter Sum]; [ring|]. rewrite IH. destruct (keep x); cbn [Sum]; ring. }
  rewrite G. ring.
Qed.
Lemma count_length keep l : count keep l = Z.of_nat (length (filter keep l)).
Proof.
  unfold count. assert (G : forall s, fold_left (fun a x => if keep x then (a + 1)%Z else a) l s = (s + Z.of_nat (length (filter keep l)))%Z).
  { induction l as [|x l IH]; intros s; cbn [fold_left filter length]; [lia|]. rewrite IH. destruct (keep x); cbn [length]; lia. }
  now rewrite G.
Qed.
Lemma mpi_sum_Sum l : mpi_sum l == Sum (fun x => x) l.
Proof. unfold mpi_sum. change (fold_left Qplus l 0) with (fold_left (fun a x => a + x) l 0). rewrite fold_Sum. ring. Qed.
Lemma sum_procs {B} (f : B -> Q) (g : list slot -> list B) procs (h : list slot -> Q) : (forall l, h l == Sum f (g l)) -> mpi_sum (map h procs) == Sum f (flat_map g procs).
Proof. intros H. rewrite mpi_sum_Sum, Sum_map. induction procs as [|l procs IH]; [reflexivity|]. cbn [Sum flat_map]. rewrite Sum_app, IH, H. reflexivity. Qed.
Lemma flat_filter keep (procs : list (list slot)) : flat_map (filter keep) procs = filter keep (concat procs).
Proof. induction procs as [|l procs IH]; [reflexivity|]. cbn [flat_map concat]. now rewrite filter_app, IH. Qed.
Lemma sum_loop keep val procs : mpi_sum (map (loop keep val) procs) == Sum val (filter keep (concat procs)).
Proof. rewrite (sum_procs val (filter keep)); [now rewrite flat_filter|apply loop_Sum]. Qed.
Lemma mpi_sumZ_app l : forall s, fold_left Z.add l s = (s + mpi_sumZ l)%Z.
Proof. unfold mpi_sumZ. induction l as [|a l IH]; intros s; cbn [fold_left]; [lia|]. rewrite (IH (s + a)%Z), (IH (0 + a)%Z). lia. Qed.
Lemma mpi_sumZ_cons a l : mpi_sumZ (a :: l) = (a + mpi_sumZ l)%Z.
Proof. unfold mpi_sumZ at 1. cbn [fold_left]. now rewrite mpi_sumZ_app. Qed.
Lemma sum_count keep procs : mpi_sumZ (map (count keep) procs) = Z.of_nat (length (filter keep (concat procs))).
Proof. induction procs as [|l procs IH]; [reflexivity|]. cbn [map concat]. rewrite mpi_sumZ_cons, IH, count_length, filter_app, app_length. lia. Qed.
Lemma sum_lengths (procs : list (list slot)) : mpi_sumZ (map (fun l => Z.of_nat (length l)) procs) = Z.of_nat (length (concat procs)).
Proof. induction procs as [|l procs IH]; [reflexivity|]. cbn [map concat]. rewrite mpi_sumZ_cons, IH, app_length. lia. Qed.

Lemma moves_dec s : moves s = if Qlt_le_dec 0 (s_im s) then true else false.
Proof. unfold moves. destruct (Qltb_spec 0 (s_im s)), (Qlt_le_dec 0 (s_im s)); try reflexivity; exfalso; lra. Qed.
Lemma in_use_leb s : in_use s = (0 <=? s_type s)%Z.
Proof. unfold in_use. destruct (Z.ltb_spec (-1) (s_type s)), (Z.leb_spec 0 (s_type s)); try reflexivity; lia. Qed.
Lemma usable_movables procs : filter usable (concat procs) = movables procs.
Proof. unfold movables, particles. rewrite filter_filter. apply filter_ext. intros s. unfold usable. rewrite moves_dec, in_use_leb. apply andb_comm. Qed.
Lemma in_use_particles procs : filter in_use (concat procs) = particles procs.
Proof. unfold particles. apply filter_ext. intros s. apply in_use_leb. Qed.
Lemma particles_all procs : no_removed procs -> particles procs = concat procs.
Proof.
  unfold no_removed, particles. generalize (concat procs). induction l as [|s l IH]; intros H; [reflexivity|]. cbn [filter]. assert (H1 := H s (or_introl eq_refl)).
  destruct (Z.leb_spec 0 (s_type s)); [|lia]. now rewrite IH by (intros; apply H; now right).
Qed.
Lemma moves_movables procs : no_removed procs -> filter moves (concat procs) = movables procs.
Proof. intros H. unfold movables. rewrite particles_all by exact H. apply filter_ext. intros s. apply moves_dec. Qed.
Lemma movables_pos procs s : In s (movables procs) -> 0 < s_im s.
Proof. unfold movables. rewrite filter_In. intros [_ H]. destruct (Qlt_le_dec 0 (s_im s)); [assumption|discriminate]. Qed.
Lemma number_zero {A} (l : list A) : number l == 0 <-> l = [].
Proof. unfold number. destruct l as [|a l]; [split; reflexivity|]. split; [|discriminate]. cbn [length]. rewrite Nat2Z.inj_succ. intros H. unfold Qeq in H. cbn in H. lia. Qed.
Lemma ratio_spec y w : (~ w == 0 -> exists q, ratio y w = Some q /\ q * w == y) /\ (w == 0 -> ratio y w = None).
Proof.
  unfold ratio. destruct (Qeq_bool w 0) eqn:E.
  - apply Qeq_bool_iff in E. split; [intros H; contradiction|reflexivity].
  - split; [|intros H; apply Qeq_bool_iff in H; congruence]. intros H. eexists. split; [reflexivity|]. field. exact H.
Qed.
Lemma contains_inside bs : forall x, contains bs x = true <-> inside bs x.
Proof.
  induction bs as [|b bs IH]; intros x; [cbn; tauto|]. destruct x as [|c x]; cbn [contains inside]; [split; [discriminate|tauto]|]. rewrite andb_true_iff, IH, negb_true_iff, orb_false_iff.
  destruct (Qltb_spec c (fst b)) as [H|H]; [split; [intros ([X _] & _); discriminate|intros (X & _); exfalso; lra]|].
  destruct (Qle_bool (snd b) c) eqn:E; [apply Qle_bool_iff in E; split; [intros ([_ X] & _); discriminate|intros (_ & X & _); exfalso; lra]|].
  assert (X : c < snd b). { apply Qnot_le_lt. intros L. apply Qle_bool_iff in L. congruence. } split; [intros (_ & Y); repeat split; [lra|exact X|exact Y]|intros (_ & _ & Y); repeat split; exact Y].
Qed.

(* type counts *)
Definition bump (c : list Z) (t : nat) : list Z := map (fun k => if (k =? t)%nat then (nth k c 0 + 1)%Z else nth k c 0%Z) (seq 0 (length c)).
Lemma nth_map_seq0 (f : nat -> Z) n k : (k < n)%nat -> nth k (map f (seq 0 n)) 0%Z = f k.
Proof. intros H. rewrite (nth_indep _ 0%Z (f 0%nat)) by (rewrite map_length, seq_length; exact H). rewrite map_nth, seq_nth by exact H. reflexivity. Qed.
Lemma type_counts_spec n l : length (type_counts n l) = n /\ forall k, (k < n)%nat -> nth k (type_counts n l) 0%Z = Z.of_nat (length (filter (fun s => (s_type s =? Z.of_nat k)%Z) l)).
Proof.
  unfold type_counts.
  assert (G : forall l c, length c = n -> let c' := fold_left (fun c s => let t := s_type s in if (-1 <? t)%Z && (t <? Z.of_nat n)%Z then bump c (Z.to_nat t) else c) l c in
     length c' = n /\ forall k, (k < n)%nat -> nth k c' 0%Z = (nth k c 0 + Z.of_nat (length (filter (fun s => (s_type s =? Z.of_nat k)%Z) l)))%Z).
  { clear. induction l as [|s l IH]; intros c Hc; cbv zeta; cbn [fold_left filter length]; [split; [exact Hc|intros; lia]|].
    destruct ((-1 <? s_type s)%Z && (s_type s <? Z.of_nat n)%Z) eqn:E.
    - apply andb_true_iff in E as [E1 E2]. apply Z.ltb_lt in E1, E2. assert (Hb : length (bump c (Z.to_nat (s_type s))) = n) by (unfold bump; now rewrite map_length, seq_length).
      destruct (IH _ Hb) as [A B]. split; [exact A|]. intros k Hk. etransitivity; [exact (B k Hk)|]. unfold bump. rewrite Hc, nth_map_seq0 by exact Hk.
      destruct (Nat.eqb_spec k (Z.to_nat (s_type s))), (Z.eqb_spec (s_type s) (Z.of_nat k)); cbn [length]; lia.
    - destruct (IH c Hc) as [A B]. split; [exact A|]. intros k Hk. etransitivity; [exact (B k Hk)|]. destruct (Z.eqb_spec (s_type s) (Z.of_nat k)) as [E'|_]; [|reflexivity].
      exfalso. rewrite E' in E. destruct (Z.ltb_spec (-1) (Z.of_nat k)), (Z.ltb_spec (Z.of_nat k) (Z.of_nat n)); try discriminate; lia. }
  destruct (G l (repeat 0%Z n) (repeat_length _ _)) as [A B]. split; [exact A|]. intros k Hk. etransitivity; [exact (B k Hk)|]. rewrite nth_repeat. lia.
Qed.
