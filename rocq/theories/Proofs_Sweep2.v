(* Sums over lists of pairs. *)
From Coq Require Import Reals Lra.
From Verif Require Import Lib Model_Cells Spec_Cells Proofs_Cells2 Proofs_Cells3.
From Verif Require Spec_Forces.
Notation sum_over := Spec_Forces.sum_over.
Notation sum_to := Spec_Forces.sum_to.
Local Open Scope R_scope.

Lemma sum_nil {A} (g : A -> R) : sum_over g [] = 0.
Proof. reflexivity. Qed.
Lemma sum_cons {A} (g : A -> R) a l : sum_over g (a :: l) = g a + sum_over g l.
Proof. reflexivity. Qed.
Lemma sum_app {A} (g : A -> R) l l' : sum_over g (l ++ l') = sum_over g l + sum_over g l'.
Proof. induction l as [|a l IH]; cbn [app]; rewrite ?sum_nil, ?sum_cons, ?IH; ring. Qed.
Lemma sum_ext {A} (g h : A -> R) l : (forall a, In a l -> g a = h a) -> sum_over g l = sum_over h l.
Proof.
  induction l as [|a l IH]; intros H; rewrite ?sum_nil, ?sum_cons; [reflexivity|].
  rewrite IH by (intros; apply H; now right). rewrite H by now left. reflexivity.
Qed.
Lemma sum_zero {A} (g : A -> R) l : (forall a, In a l -> g a = 0) -> sum_over g l = 0.
Proof. induction l as [|a l IH]; intros H; rewrite ?sum_nil, ?sum_cons; [reflexivity|]. rewrite IH, H; [ring|now left|]. intros; apply H; now right. Qed.
Lemma sum_plus {A} (g h : A -> R) l : sum_over (fun a => g a + h a) l = sum_over g l + sum_over h l.
Proof. induction l as [|a l IH]; rewrite ?sum_nil, ?sum_cons; [ring|]. rewrite IH. ring. Qed.
Lemma sum_map {A B} (f : A -> B) (g : B -> R) l : sum_over g (map f l) = sum_over (fun a => g (f a)) l.
Proof. induction l as [|a l IH]; cbn [map]; rewrite ?sum_nil, ?sum_cons; [reflexivity|]. now rewrite IH. Qed.
Lemma sum_flat_map {A B} (f : A -> list B) (g : B -> R) l : sum_over g (flat_map f l) = sum_over (fun a => sum_over g (f a)) l.
Proof. induction l as [|a l IH]; cbn [flat_map]; rewrite ?sum_nil, ?sum_cons, ?sum_app; [reflexivity|]. now rewrite IH. Qed.
Lemma sum_seq n g : sum_over g (seq 0 n) = sum_to n g.
Proof. induction n as [|n IH]; [reflexivity|]. rewrite seq_S, sum_app, IH. cbn. ring. Qed.
Lemma sum_filter {A} (f : A -> bool) (g : A -> R) l : sum_over g (filter f l) = sum_over (fun a => if f a then g a else 0) l.
Proof. induction l as [|a l IH]; cbn [filter]; [reflexivity|]. destruct (f a) eqn:E; rewrite ?sum_cons, ?E, IH; ring. Qed.
Lemma sum_exchange {A B} (g : A -> B -> R) (l : list A) (m : list B) :
  sum_over (fun a => sum_over (g a) m) l = sum_over (fun b => sum_over (fun a => g a b) l) m.
Proof.
  induction l as [|a l IH].
  - rewrite sum_nil. symmetry. apply sum_zero. reflexivity.
  - rewrite sum_cons, IH, <- sum_plus. reflexivity.
Qed.

(* A sum over some of the elements is the sum over all of them, if the others do not count. *)
Lemma sum_sub {A} (g : A -> R) (L K : list A) : NoDup L -> NoDup K -> incl L K -> (forall k, In k K -> ~ In k L -> g k = 0) ->
  sum_over g L = sum_over g K.
Proof.
  intros NL. revert K. induction NL as [|a L Ha NL IH]; intros K NK HI HZ.
  - symmetry. rewrite sum_nil. apply sum_zero. intros k Hk. apply HZ; [exact Hk|intros []].
  - destruct (in_split a K (HI a (or_introl eq_refl))) as (K1 & K2 & ->).
    rewrite sum_cons, sum_app, sum_cons. rewrite (IH (K1 ++ K2)).
    + rewrite sum_app. ring.
    + now apply NoDup_remove_1 in NK.
    + intros x Hx. assert (In x (K1 ++ a :: K2)) as I by (apply HI; now right). apply in_app_iff in I. apply in_app_iff.
      destruct I as [I|[<-|I]]; auto; contradiction.
    + intros k Hk Hn. apply HZ.
      * apply in_app_iff in Hk. apply in_app_iff. destruct Hk; [now left|right; now right].
      * intros [<-|I]; [|contradiction]. apply NoDup_remove_2 in NK. contradiction.
Qed.

(* One term of a list without repetitions. *)
Lemma sum_pick {A} (dec : forall x y : A, {x = y} + {x <> y}) (g : A -> R) l a : NoDup l -> In a l ->
  sum_over (fun x => if dec x a then g x else 0) l = g a.
Proof.
  intros N H. transitivity (sum_over (fun x => if dec x a then g x else 0) [a]).
  - symmetry. apply sum_sub; [repeat constructor; intros []|exact N|intros x [<-|[]]; exact H|].
    intros k _ Hn. destruct (dec k a) as [->|]; [|reflexivity]. exfalso. apply Hn. now left.
  - rewrite sum_cons, sum_nil. destruct (dec a a); [ring|contradiction].
Qed.

Definition partners (a : nat) (vs : list visit) : list nat :=
  flat_map (fun v => let '(i, j, _) := v in if (a =? i)%nat then [j] else if (a =? j)%nat then [i] else []) vs.

Lemma partners_in a vs b : (forall i j w, In (i, j, w) vs -> i <> j) -> (In b (partners a vs) <-> visited vs a b /\ a <> b).
Proof.
  intros HN. unfold partners, visited. rewrite in_flat_map. split.
  - intros ([[i j] w] & Hv & H). assert (NE := HN _ _ _ Hv). destruct (Nat.eqb_spec a i) as [->|].
    + destruct H as [<-|[]]. split; [exists w; now left|congruence].
    + destruct (Nat.eqb_spec a j) as [->|]; [|destruct H]. destruct H as [<-|[]]. split; [exists w; now right|congruence].
  - intros ((w & [H|H]) & NE).
    + exists (a, b, w). split; [exact H|]. rewrite Nat.eqb_refl. now left.
    + exists (b, a, w). split; [exact H|]. destruct (Nat.eqb_spec a b); [congruence|]. rewrite Nat.eqb_refl. now left.
Qed.

Lemma NoDup_map_inj {A B} (f : A -> B) l x y : NoDup (map f l) -> In x l -> In y l -> f x = f y -> x = y.
Proof.
  induction l as [|a l IH]; intros N Hx Hy E; [destruct Hx|]. cbn in N. inversion N as [|? ? Ha N']; subst.
  destruct Hx as [->|Hx], Hy as [->|Hy]; auto.
  - exfalso. apply Ha. rewrite E. now apply in_map.
  - exfalso. apply Ha. rewrite <- E. now apply in_map.
Qed.

Lemma partners_nodup a vs : NoDup (map upair vs) -> NoDup (partners a vs).
Proof.
  intros N. unfold partners. apply NoDup_flat_map.
  - eapply NoDup_map_inv; exact N.
  - intros [[i j] w] _. destruct (a =? i)%nat; [repeat constructor; intros []|]. destruct (a =? j)%nat; [repeat constructor; intros []|constructor].
  - intros [[i j] w] [[i' j'] w'] b Hx Hy Hb Hb'. apply (NoDup_map_inj upair vs); auto. unfold upair.
    destruct (Nat.eqb_spec a i) as [->|]; [destruct Hb as [<-|[]]|destruct (Nat.eqb_spec a j) as [->|]; [destruct Hb as [<-|[]]|destruct Hb]].
    + destruct (Nat.eqb_spec i i') as [->|]; [destruct Hb' as [<-|[]]; reflexivity|]. destruct (Nat.eqb_spec i j') as [->|]; [|destruct Hb'].
      destruct Hb' as [<-|[]]. f_equal; lia.
    + destruct (Nat.eqb_spec j i') as [->|]; [destruct Hb' as [<-|[]]; f_equal; lia|]. destruct (Nat.eqb_spec j j') as [->|]; [|destruct Hb'].
      destruct Hb' as [<-|[]]. reflexivity.
Qed.

(* The sum over the visits of a is the sum over all other particles. *)
Lemma visits_of a n (P : nat -> R) vs : NoDup (map upair vs) -> (forall i j w, In (i, j, w) vs -> i <> j /\ (i < n)%nat /\ (j < n)%nat) ->
  (forall b, (b < n)%nat -> b <> a -> ~ visited vs a b -> P b = 0) ->
  sum_over (fun v => let '(i, j, _) := v in (if (a =? i)%nat then P j else 0) + (if (a =? j)%nat then P i else 0)) vs =
  sum_to n (fun b => if (b =? a)%nat then 0 else P b).
Proof.
  intros N HV HZ. assert (HNE : forall i j w, In (i, j, w) vs -> i <> j) by (intros i j w H; now destruct (HV _ _ _ H)).
  transitivity (sum_over P (partners a vs)).
  - unfold partners. rewrite sum_flat_map. apply sum_ext. intros [[i j] w] Hv. destruct (HV _ _ _ Hv) as (NE & _).
    destruct (Nat.eqb_spec a i), (Nat.eqb_spec a j); try congruence; rewrite ?sum_cons, ?sum_nil; ring.
  - transitivity (sum_over P (filter (fun b => negb (b =? a)%nat) (seq 0 n))).
    + apply sum_sub; [now apply partners_nodup|apply NoDup_filter, seq_NoDup| |].
      * intros b Hb. apply (partners_in a vs b HNE) in Hb. destruct Hb as ((w & H) & NE).
        apply filter_In. split; [|apply Bool.negb_true_iff, Nat.eqb_neq; congruence]. apply in_seq.
        destruct H as [H|H]; destruct (HV _ _ _ H) as (_ & ? & ?); lia.
      * intros b Hb Hn. apply filter_In in Hb. destruct Hb as (Hb & NE). apply in_seq in Hb. apply Bool.negb_true_iff, Nat.eqb_neq in NE.
        apply HZ; [lia|exact NE|]. intros V. apply Hn. apply (partners_in a vs b HNE). split; congruence.
    + rewrite sum_filter, <- sum_seq. apply sum_ext. intros b _. destruct (b =? a)%nat; reflexivity.
Qed.

Definition all_pairs (n : nat) : list (nat * nat) := flat_map (fun j => map (fun i => (i, j)) (seq 0 j)) (seq 0 n).
Lemma all_pairs_in n i j : In (i, j) (all_pairs n) <-> (i < j < n)%nat.
Proof.
  unfold all_pairs. rewrite in_flat_map. split.
  - intros (x & Hx & H). apply in_map_iff in H. destruct H as (y & E & H). injection E as <- <-. apply in_seq in H. apply in_seq in Hx. lia.
  - intros H. exists j. split; [apply in_seq; lia|]. apply in_map_iff. exists i. split; [reflexivity|apply in_seq; lia].
Qed.
Lemma all_pairs_nodup n : NoDup (all_pairs n).
Proof.
  unfold all_pairs. apply NoDup_flat_map; [apply seq_NoDup| |].
  - intros j _. apply FinFun.Injective_map_NoDup; [intros x y E; congruence|apply seq_NoDup].
  - intros x y [i j] _ _ H H'. apply in_map_iff in H. apply in_map_iff in H'. destruct H as (? & E & _). destruct H' as (? & E' & _). congruence.
Qed.

Lemma visits_all n (A : nat -> nat -> R) vs : NoDup (map upair vs) -> (forall i j w, In (i, j, w) vs -> i <> j /\ (i < n)%nat /\ (j < n)%nat) ->
  (forall i j, A i j = A j i) -> (forall i j, (i < n)%nat -> (j < n)%nat -> i <> j -> ~ visited vs i j -> A i j = 0) ->
  sum_over (fun v => let '(i, j, _) := v in A i j) vs = sum_to n (fun j => sum_to j (fun i => A i j)).
Proof.
  intros N HV HS HZ.
  transitivity (sum_over (fun p => A (fst p) (snd p)) (map upair vs)).
  - rewrite sum_map. apply sum_ext. intros [[i j] w] _. unfold upair. cbn [fst snd].
    destruct (Nat.le_gt_cases i j); [rewrite Nat.min_l, Nat.max_r by lia; reflexivity|rewrite Nat.min_r, Nat.max_l by lia; apply HS].
  - transitivity (sum_over (fun p => A (fst p) (snd p)) (all_pairs n)).
    + apply sum_sub; [exact N|apply all_pairs_nodup| |].
      * intros [x y] H. apply in_map_iff in H. destruct H as ([[i j] w] & E & H). unfold upair in E. injection E as <- <-.
        destruct (HV _ _ _ H). apply all_pairs_in. lia.
      * intros [x y] H Hn. apply all_pairs_in in H. cbn [fst snd]. apply HZ; try lia. intros (w & V). apply Hn. apply in_map_iff.
        destruct V as [V|V]; eexists; (split; [|exact V]); unfold upair; f_equal; lia.
    + unfold all_pairs. rewrite sum_flat_map, <- sum_seq. apply sum_ext. intros j _. rewrite sum_map. cbn [fst snd]. apply sum_seq.
Qed.
