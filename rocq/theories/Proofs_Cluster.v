From Coq Require Import List Bool ZArith Lia.
From Verif Require Import Model_Cluster Spec_Cluster.
Import ListNotations.
Local Open Scope Z_scope.

Definition g (c : list Z) (i : nat) : Z := nth i c (-1).
Definition cnt (c : list Z) (k : Z) : nat := count_occ Z.eq_dec c k.

Lemma g_nth c i : (i < length c)%nat -> nth_error c i = Some (g c i).
Proof. intros H. unfold g. now apply nth_error_nth'. Qed.
Lemma g_lt c i : g c i <> -1 -> (i < length c)%nat.
Proof. intros H. destruct (Nat.lt_ge_cases i (length c)); [assumption|]. exfalso. apply H. unfold g. now apply nth_overflow. Qed.
Lemma set_at_spec k : forall c i, (i < length c)%nat -> exists c', set_at i k c = Some c' /\ length c' = length c /\ (forall j, g c' j = if (j =? i)%nat then k else g c j) /\
  (g c i <> k -> cnt c' k = S (cnt c k) /\ (cnt c (g c i) = S (cnt c' (g c i)))%nat /\ forall v, v <> k -> v <> g c i -> cnt c' v = cnt c v).
Proof.
  induction c as [|a c IH]; intros [|i] H; cbn [length] in H; try lia.
  - exists (k :: c). split; [reflexivity|]. split; [reflexivity|]. split; [intros [|j]; reflexivity|]. unfold g, cnt. cbn [nth]. intros Hk. cbn [count_occ].
    destruct (Z.eq_dec k k); [|congruence]. destruct (Z.eq_dec a k); [congruence|]. destruct (Z.eq_dec a a); [|congruence]. destruct (Z.eq_dec k a); [congruence|]. split; [reflexivity|]. split; [reflexivity|].
    intros v V1 V2. destruct (Z.eq_dec k v); [congruence|]. destruct (Z.eq_dec a v); [congruence|]. reflexivity.
  - destruct (IH i) as (c' & E & L & N & C); [lia|]. exists (a :: c'). cbn [set_at]. rewrite E. split; [reflexivity|]. split; [cbn; congruence|]. split.
    + intros [|j]; [reflexivity|]. unfold g in *. cbn [nth Nat.eqb]. apply N.
    + unfold g, cnt in *. cbn [nth]. intros Hk. destruct (C Hk) as (C1 & C2 & C3). cbn [count_occ]. split; [|split].
      * destruct (Z.eq_dec a k); rewrite C1; reflexivity.
      * destruct (Z.eq_dec a (nth i c (-1))); rewrite C2; reflexivity.
      * intros v V1 V2. destruct (Z.eq_dec a v); rewrite C3 by assumption; reflexivity.
Qed.
Lemma set_at_id k c i : (i < length c)%nat -> g c i = k -> set_at i k c = Some c.
Proof.
  revert i. induction c as [|a c IH]; intros [|i] H E; cbn [length] in H; try lia; cbn [set_at].
  - unfold g in E. cbn in E. now subst.
  - rewrite IH; [reflexivity|lia|exact E].
Qed.

Section One.
Variables (same : bool) (types : list Z) (near : nat -> list nat) (n : nat).
Hypothesis Hty : forall i, (i < n)%nat -> exists t, nth_error types i = Some t /\ t <> -1.
Hypothesis Hnear : forall i m, (i < n)%nat -> In m (near i) -> (m < n)%nat.
Notation conn := (connected same types near).
Definition ok (ht : Z) (m : nat) : Prop := same = true -> nth_error types m = Some ht.

Lemma push_spec k ht : k <> -1 -> forall nbs st c, length c = n -> (forall m, In m nbs -> (m < n)%nat) ->
  exists news c', push_all same types k ht nbs st c = Some (news ++ st, c') /\ length c' = n /\ NoDup news /\
    (forall i, In i news <-> In i nbs /\ ok ht i /\ g c i = -1) /\ (forall i, In i news -> g c' i = k) /\ (forall i, ~ In i news -> g c' i = g c i) /\
    (length news + cnt c' (-1) = cnt c (-1))%nat /\ (cnt c' k = cnt c k + length news)%nat /\ (forall v, v <> k -> v <> -1 -> cnt c' v = cnt c v).
Proof.
  intros Hk. induction nbs as [|m nbs IH]; intros st c Hc Hn; cbn [push_all].
  - exists [], c. cbn [app length]. split; [reflexivity|]. split; [exact Hc|]. split; [constructor|]. split; [intros i; cbn; tauto|]. split; [intros i []|]. split; [reflexivity|]. split; [reflexivity|]. split; [lia|reflexivity].
  - assert (Hm : (m < n)%nat) by (apply Hn; now left). rewrite g_nth by lia. destruct (Hty m Hm) as (tm & Et & Htm). rewrite Et.
    destruct ((g c m =? -1) && (negb same || (tm =? ht)) && negb (tm =? -1)) eqn:Ec.
    + rewrite !andb_true_iff, Z.eqb_eq in Ec. destruct Ec as [[Em Eo] _].
      assert (Ok : ok ht m) by (intros S; rewrite S in Eo; cbn in Eo; apply Z.eqb_eq in Eo; congruence).
      destruct (set_at_spec k c m) as (c1 & E1 & L1 & N1 & C1); [lia|]. rewrite E1. assert (Hne : g c m <> k) by congruence. destruct (C1 Hne) as (D1 & D2 & D3). rewrite Em in D2, D3.
      destruct (IH (m :: st) c1) as (news & c' & E & L & ND & I & K & O & M1 & M2 & M3); [congruence|intros x Hx; apply Hn; now right|].
      assert (Hnm : ~ In m news) by (intros C; apply I in C as (_ & _ & C); rewrite N1, Nat.eqb_refl in C; congruence).
      exists (news ++ [m]), c'. rewrite <- app_assoc. split; [exact E|]. split; [exact L|]. split; [|split; [|split; [|split; [|split; [|split]]]]].
      * apply NoDup_rev in ND. rewrite <- (rev_involutive (news ++ [m])). apply NoDup_rev. rewrite rev_app_distr. cbn. constructor; [rewrite <- in_rev; exact Hnm|exact ND].
      * intros i. rewrite in_app_iff, I. cbn [In]. rewrite N1. destruct (Nat.eqb_spec i m) as [-> |Hi]; split; intros H.
        -- tauto.
        -- tauto.
        -- destruct H as [(A & B & C)|[H|[]]]; [tauto|congruence].
        -- destruct H as ([H|H] & B & C); [congruence|tauto].
      * intros i Hi. apply in_app_or in Hi as [Hi|[Hi|[]]]; [now apply K|]. subst i. rewrite O by exact Hnm. now rewrite N1, Nat.eqb_refl.
      * intros i Hi. rewrite O by (intros C; apply Hi, in_or_app; now left). rewrite N1. destruct (Nat.eqb_spec i m) as [-> |Hi']; [exfalso; apply Hi, in_or_app; right; now left|reflexivity].
      * rewrite app_length. cbn [length]. lia.
      * rewrite app_length. cbn [length]. lia.
      * intros v V1 V2. rewrite M3 by assumption. now apply D3.
    + destruct (IH st c) as (news & c' & E & L & ND & I & K & O & M1 & M2 & M3); [exact Hc|intros x Hx; apply Hn; now right|].
      exists news, c'. split; [exact E|]. split; [exact L|]. split; [exact ND|]. split; [|repeat split; assumption].
      intros i. rewrite I. cbn [In]. split; [tauto|]. intros ([<- |A] & B & C); [|tauto]. exfalso. apply not_true_iff_false in Ec. apply Ec. rewrite !andb_true_iff, C. split; [split; [reflexivity|]|].
      * destruct same eqn:S; [|reflexivity]. cbn. specialize (B S). rewrite Et in B. injection B as ->. apply Z.eqb_refl.
      * apply negb_true_iff, Z.eqb_neq. exact Htm.
Qed.

Lemma conn_lt i j : (i < n)%nat -> conn i j -> (j < n)%nat.
Proof. intros Hi H. induction H; [assumption|]. eapply Hnear; eassumption. Qed.
Lemma conn_type i j : same = true -> conn i j -> nth_error types j = nth_error types i.
Proof. intros S H. induction H as [|j m H IH Hin E]; [reflexivity|]. rewrite (E S). exact IH. Qed.

Lemma explore_spec k ht h : k <> -1 -> (h < n)%nat -> nth_error types h = Some ht -> forall fuel stack c size, length c = n -> NoDup stack ->
  (forall s, In s stack -> g c s = k) -> (forall i, g c i = k -> conn h i) ->
  (forall i m, g c i = k -> ~ In i stack -> In m (near i) -> ok ht m -> g c m <> -1) ->
  size = Z.of_nat (cnt c k) - Z.of_nat (length stack) -> (length stack + cnt c (-1) <= fuel)%nat ->
  exists c', explore fuel same types near k ht stack c size = Some (c', Z.of_nat (cnt c' k)) /\ length c' = n /\
    (forall i, g c i <> -1 -> g c' i = g c i) /\ (forall i, g c' i = g c i \/ g c' i = k) /\ (forall i, g c' i = k -> conn h i) /\
    (forall i m, g c' i = k -> In m (near i) -> ok ht m -> g c' m <> -1) /\ (forall v, v <> k -> v <> -1 -> cnt c' v = cnt c v).
Proof.
  intros Hk Hh Hht. induction fuel as [|f IH]; intros stack c size Hc ND Hst Hconn Hclo Hsz Hfu.
  - destruct stack as [|s stack]; [|cbn [length] in Hfu; lia]. exists c. cbn [explore length] in *. split; [f_equal; f_equal; lia|]. split; [exact Hc|]. split; [reflexivity|]. split; [now left|]. split; [exact Hconn|]. split; [|reflexivity]. intros i m A B D. apply (Hclo i m A); [intros []|exact B|exact D].
  - destruct stack as [|id st].
    + exists c. cbn [explore length] in *. split; [f_equal; f_equal; lia|]. split; [exact Hc|]. split; [reflexivity|]. split; [now left|]. split; [exact Hconn|]. split; [|reflexivity]. intros i m A B D. apply (Hclo i m A); [intros []|exact B|exact D].
    + cbn [explore]. assert (Gid : g c id = k) by (apply Hst; now left). assert (Lid : (id < n)%nat) by (rewrite <- Hc; apply g_lt; congruence).
      rewrite set_at_id; [|lia|exact Gid].
      destruct (push_spec k ht Hk (near id) st c Hc) as (news & c1 & E & L & NDn & I & K & O & M1 & M2 & M3); [intros m Hm; now apply (Hnear id)|]. rewrite E. cbn [length] in Hfu, Hsz.
      pose proof (NoDup_cons_iff id st) as [Q _]. destruct (Q ND) as [Nid NDst]. clear Q.
      assert (Keep : forall i, g c i <> -1 -> g c1 i = g c i).
      { intros i Hi. apply O. intros C. apply I in C. tauto. }
      destruct (IH (news ++ st) c1 (size + 1)) as (c' & E' & L' & A1 & A2 & A3 & A4 & A5).
      * exact L.
      * clear - NDn NDst I Hst Hk. induction news as [|a news IHn]; [exact NDst|]. cbn. apply NoDup_cons_iff in NDn as [N1 N2]. constructor.
        -- rewrite in_app_iff. intros [C|C]; [now apply N1|]. assert (g c a = -1) by (apply I; now left). assert (g c a = k) by (apply Hst; now right). congruence.
        -- assert (G : forall x, In x news -> g c x = -1) by (intros x Hx; apply I; now right). clear - N2 NDst G Hst Hk. induction news as [|a news IHn]; [exact NDst|]. cbn. apply NoDup_cons_iff in N2 as [N1 N2]. constructor.
           ++ rewrite in_app_iff. intros [C|C]; [now apply N1|]. assert (g c a = -1) by (apply G; now left). assert (g c a = k) by (apply Hst; now right). congruence.
           ++ apply IHn; [exact N2|]. intros x Hx. apply G. now right.
      * intros s Hs. apply in_app_or in Hs as [Hs|Hs]; [now apply K|]. rewrite Keep; apply Hst || (rewrite Hst; [congruence|now right]). now right.
      * intros i Hi. destruct (in_dec Nat.eq_dec i news) as [Y|Y].
        -- apply I in Y as (Y1 & Y2 & _). apply conn_step with id; [now apply Hconn|exact Y1|]. intros S. rewrite (Y2 S). rewrite (conn_type h id S) by now apply Hconn. congruence.
        -- rewrite O in Hi by exact Y. now apply Hconn.
      * intros i m Gi Ni Hm Om. destruct (in_dec Nat.eq_dec i news) as [Y|Y]; [exfalso; apply Ni, in_or_app; now left|]. rewrite O in Gi by exact Y.
        destruct (Nat.eq_dec i id) as [-> |Hne].
        -- destruct (in_dec Nat.eq_dec m news) as [Ym|Ym]; [rewrite (K m Ym); exact Hk|]. rewrite (O m Ym). intros C. apply Ym, I. repeat split; assumption.
        -- assert (g c m <> -1) as Gm; [|now rewrite Keep]. apply (Hclo i m Gi); [|exact Hm|exact Om]. intros [C|C]; [congruence|]. apply Ni, in_or_app. now right.
      * rewrite app_length. lia.
      * rewrite app_length. lia.
      * exists c'. split; [exact E'|]. split; [exact L'|]. split; [|split; [|split; [exact A3|split; [exact A4|]]]].
        -- intros i Hi. rewrite A1; rewrite Keep; assumption || reflexivity.
        -- intros i. destruct (A2 i) as [A|A]; [|now right]. rewrite A. destruct (in_dec Nat.eq_dec i news) as [Y|Y]; [right; now apply K|left; now apply O].
        -- intros v V1 V2. rewrite A5 by assumption. now apply M3.
Qed.

Hypothesis Hsym : forall i m, (i < n)%nat -> In m (near i) -> In i (near m).
Lemma conn_trans i j m : conn i j -> conn j m -> conn i m.
Proof. intros A B. induction B as [|x y B IH Hin E]; [exact A|]. apply conn_step with x; [now apply IH|exact Hin|exact E]. Qed.
Lemma conn_sym i j : (i < n)%nat -> conn i j -> conn j i.
Proof.
  intros Hi H. induction H as [|j m H IH Hin E]; [constructor|]. assert (Hj : (j < n)%nat) by now apply (conn_lt i).
  apply conn_trans with j; [|exact IH]. apply conn_step with m; [constructor|now apply Hsym|]. intros S. symmetry. now apply E.
Qed.

Definition inv (s : clustering) : Prop :=
  length (cl_clusters s) = n /\ 0 <= cl_n s /\ (forall i, (i < n)%nat -> -1 <= g (cl_clusters s) i < cl_n s) /\
  (forall i j, g (cl_clusters s) i <> -1 -> conn i j -> g (cl_clusters s) j = g (cl_clusters s) i) /\
  (forall i j, g (cl_clusters s) i <> -1 -> g (cl_clusters s) j = g (cl_clusters s) i -> conn i j) /\
  Z.of_nat (length (cl_sizes s)) = cl_n s /\
  (forall k, 0 <= k < cl_n s -> nth (Z.to_nat k) (cl_sizes s) 0 = Z.of_nat (cnt (cl_clusters s) k) /\ exists i, (i < n)%nat /\ g (cl_clusters s) i = k).
Definition max_of (m0 : Z) (l : list Z) : Z := fold_left Z.max l m0.

Lemma cnt_zero c k : (forall i, (i < length c)%nat -> g c i <> k) -> cnt c k = 0%nat.
Proof. intros H. apply count_occ_not_In. intros C. apply (In_nth _ _ (-1)) in C as (i & Hi & E). now apply (H i Hi). Qed.

Lemma head_step s h ht : inv s -> (h < n)%nat -> nth_error types h = Some ht -> g (cl_clusters s) h = -1 ->
  exists c' size, explore (S n) same types near (cl_n s) ht [h] (cl_clusters s) 0 = Some (c', size) /\
    inv (mkCl c' (cl_sizes s ++ [size]) (cl_n s + 1) (Z.max (cl_max s) size) (cl_same s)) /\ g c' h <> -1 /\ (forall i, g (cl_clusters s) i <> -1 -> g c' i <> -1).
Proof.
  intros (Lc & K0 & Rng & Clo & Snd & Lsz & Szs) Hh Ht Gh. set (c := cl_clusters s) in *. set (k := cl_n s) in *. assert (Hk : k <> -1) by lia.
  destruct (set_at_spec k c h) as (c1 & E1 & L1 & N1 & C1); [lia|]. rewrite Gh in C1. destruct (C1 ltac:(congruence)) as (D1 & D2 & D3).
  assert (Z0 : cnt c k = 0%nat) by (apply cnt_zero; intros i Hi; specialize (Rng i ltac:(lia)); lia).
  assert (Nk : forall i, g c i <> k).
  { intros i. destruct (Nat.lt_ge_cases i n) as [Hi|Hi]; [specialize (Rng i Hi); lia|]. unfold g. rewrite nth_overflow by lia. congruence. }
  destruct (explore_spec k ht h Hk Hh Ht (S n) [h] c1 0) as (c' & E & L & A1 & A2 & A3 & A4 & A5).
  - congruence.
  - constructor; [intros []|constructor].
  - intros s' [<- |[]]. now rewrite N1, Nat.eqb_refl.
  - intros i Hi. rewrite N1 in Hi. destruct (Nat.eqb_spec i h) as [Ei|Hne]; [rewrite Ei; constructor|]. destruct (Nk i Hi).
  - intros i m Hi Hni. rewrite N1 in Hi. destruct (Nat.eqb_spec i h) as [Ei|Hne]; [exfalso; apply Hni; left; congruence|]. destruct (Nk i Hi).
  - rewrite D1, Z0. reflexivity.
  - assert (cnt c (-1) <= n)%nat by (rewrite <- Lc; apply count_occ_bound). cbn [length]. lia.
  - assert (Ex : explore (S n) same types near k ht [h] c 0 = Some (c', Z.of_nat (cnt c' k))).
    { rewrite <- E. cbn [explore]. rewrite E1. rewrite (set_at_id k c1 h); [reflexivity|lia|]. now rewrite N1, Nat.eqb_refl. }
    exists c', (Z.of_nat (cnt c' k)). split; [exact Ex|].
    assert (Old : forall i, g c i <> -1 -> g c' i = g c i).
    { intros i Hi. assert (i <> h) by congruence. assert (Q : g c1 i = g c i) by (rewrite N1; destruct (Nat.eqb_spec i h); [contradiction|reflexivity]). rewrite A1; congruence. }
    assert (New : forall i, g c' i = g c i \/ g c i = -1 /\ g c' i = k).
    { intros i. destruct (Z.eq_dec (g c i) (-1)) as [Y|Y]; [|left; now apply Old]. destruct (A2 i) as [Q|Q]; [|right; tauto]. rewrite N1 in Q. destruct (i =? h)%nat; [right; tauto|now left]. }
    assert (Gh' : g c' h = k) by (rewrite A1; rewrite N1, Nat.eqb_refl; congruence).
    assert (Hht : forall i, g c' i = k -> same = true -> nth_error types i = Some ht) by (intros i Hi S; rewrite (conn_type h i S) by (now apply A3); exact Ht).
    assert (Klo : forall i j, g c' i = k -> conn i j -> g c' j = k).
    { intros i j Hi Hc. assert (Li : (i < n)%nat) by (rewrite <- L; apply g_lt; congruence). induction Hc as [|x y Hc IH Hin Et]; [exact Hi|]. specialize (IH). assert (Lx : (x < n)%nat) by now apply (conn_lt i).
      assert (Gy : g c' y <> -1) by (apply (A4 x y IH Hin); intros S; rewrite (Et S); now apply Hht).
      destruct (New y) as [Q|[_ Q]]; [|exact Q]. exfalso. rewrite Q in Gy.
      assert (Q2 : g c x = g c y) by (apply Clo; [exact Gy|]; apply conn_sym; [exact Lx|]; apply conn_step with x; [constructor|exact Hin|exact Et]).
      assert (g c' x = g c x) by (apply Old; congruence). apply (Nk x). congruence. }
    split; [|split; [congruence|intros i Hi; rewrite Old; assumption]].
    unfold inv. cbn [cl_clusters cl_n cl_sizes]. fold k. split; [exact L|]. split; [lia|]. split; [|split; [|split; [|split]]].
    + intros i Hi. specialize (Rng i Hi). destruct (New i) as [Q|[_ Q]]; rewrite Q; lia.
    + intros i j Hi Hc. destruct (New i) as [Q|[_ Q]].
      * rewrite Q in *. rewrite <- (Clo i j Hi Hc). apply Old. rewrite (Clo i j Hi Hc). exact Hi.
      * rewrite Q. now apply (Klo i).
    + intros i j Hi Ej. destruct (New i) as [Q|[_ Q]].
      * assert (Y : g c j <> -1). { destruct (New j) as [Q2|[_ Q2]]; [congruence|]. exfalso. apply (Nk i). congruence. }
        apply Snd; [congruence|]. rewrite <- (Old j Y). congruence.
      * apply conn_trans with h; [apply conn_sym; [exact Hh|]; now apply A3|apply A3; congruence].
    + rewrite app_length. cbn [length]. lia.
    + intros v Hv. destruct (Z.eq_dec v k) as [-> |Hne].
      * rewrite app_nth2 by lia. replace (Z.to_nat k - length (cl_sizes s))%nat with 0%nat by lia. split; [reflexivity|]. exists h. split; [exact Hh|exact Gh'].
      * destruct (Szs v ltac:(lia)) as (S1 & i & S2 & S3). rewrite app_nth1 by lia. split.
        -- rewrite S1. rewrite (A5 v Hne ltac:(lia)). rewrite D3 by lia. reflexivity.
        -- exists i. split; [exact S2|]. rewrite Old; [exact S3|]. fold c in S3. lia.
Qed.

Lemma heads_spec : forall k a s first, (a + k = n)%nat -> inv s -> (forall i, (i < a)%nat -> g (cl_clusters s) i <> -1) -> (first = true -> a = 0%nat /\ g (cl_clusters s) 0 = -1) ->
  exists s', heads same types near n (seq a k) first s = Some s' /\ inv s' /\ (forall i, (i < n)%nat -> g (cl_clusters s') i <> -1) /\
    exists l, cl_sizes s' = cl_sizes s ++ l /\ cl_max s' = max_of (cl_max s) l /\ cl_same s' = cl_same s.
Proof.
  induction k as [|k IH]; intros a s first Ha Hi Hlow Hf.
  - exists s. cbn [seq heads]. split; [reflexivity|]. split; [exact Hi|]. split; [intros i Li; apply Hlow; lia|]. exists []. rewrite app_nil_r. repeat split.
  - cbn [seq heads]. destruct (Hty a ltac:(lia)) as (t & Et & Ht). rewrite Et. rewrite g_nth by (destruct Hi as (L & _); lia).
    assert (Cond : first || (g (cl_clusters s) a =? -1) && negb (t =? -1) = (g (cl_clusters s) a =? -1)).
    { destruct first; [destruct (Hf eq_refl) as [-> ->]; reflexivity|]. cbn [orb]. destruct (Z.eqb_spec t (-1)); [contradiction|]. cbn. apply andb_true_r. }
    rewrite Cond. destruct (Z.eqb_spec (g (cl_clusters s) a) (-1)) as [G|G].
    + destruct (head_step s a t Hi ltac:(lia) Et G) as (c' & size & E & I' & G1 & G2). rewrite E.
      destruct (IH (S a) (mkCl c' (cl_sizes s ++ [size]) (cl_n s + 1) (Z.max (cl_max s) size) (cl_same s)) false) as (s' & E' & I2 & Al & l & B1 & B2 & B3); [lia|exact I'| |discriminate|].
      * intros i Li. cbn [cl_clusters]. destruct (Nat.eq_dec i a) as [-> |]; [exact G1|]. apply G2, Hlow. lia.
      * exists s'. split; [exact E'|]. split; [exact I2|]. split; [exact Al|]. exists (size :: l). cbn [cl_sizes cl_max cl_same] in *. rewrite B1, <- app_assoc. split; [reflexivity|]. split; [exact B2|exact B3].
    + apply (IH (S a) s false); [lia|exact Hi| |discriminate]. intros i Li. destruct (Nat.eq_dec i a) as [-> |]; [exact G|]. apply Hlow. lia.
Qed.
End One.

(* ---------- the snapshot ---------- *)
Lemma add_to_spec i : forall l c, 0 <= c < Z.of_nat (length l) -> exists l', add_to i c l = Some l' /\ length l' = length l /\
  forall k, nth k l' [] = if Z.of_nat k =? c then nth k l [] ++ [i] else nth k l [].
Proof.
  induction l as [|a l IH]; intros c H; cbn [length] in H; [lia|]. cbn [add_to]. destruct (Z.ltb_spec c 0); [lia|]. destruct (Z.eqb_spec c 0) as [-> |Hc].
  - eexists. split; [reflexivity|]. split; [reflexivity|]. intros [|k]; reflexivity.
  - destruct (IH (c - 1)) as (l' & E & L & N); [lia|]. rewrite E. eexists. split; [reflexivity|]. split; [cbn; congruence|]. intros [|k]; cbn [nth].
    + destruct (Z.eqb_spec (Z.of_nat 0) c); [lia|reflexivity].
    + rewrite N. destruct (Z.eqb_spec (Z.of_nat k) (c - 1)), (Z.eqb_spec (Z.of_nat (S k)) c); try reflexivity; lia.
Qed.
Lemma constituents_spec : forall cs a l, (forall c, In c cs -> 0 <= c < Z.of_nat (length l)) -> exists l', constituents a cs l = Some l' /\ length l' = length l /\
  forall k, nth k l' [] = nth k l [] ++ filter (fun i => nth (i - a) cs (-1) =? Z.of_nat k) (seq a (length cs)).
Proof.
  induction cs as [|c cs IH]; intros a l H; cbn [constituents].
  - exists l. split; [reflexivity|]. split; [reflexivity|]. intros k. cbn. now rewrite app_nil_r.
  - destruct (add_to_spec a l c (H c (or_introl eq_refl))) as (l1 & E1 & L1 & N1). rewrite E1. destruct (IH (S a) l1) as (l2 & E2 & L2 & N2); [intros x Hx; rewrite L1; apply H; now right|].
    exists l2. split; [exact E2|]. split; [congruence|]. intros k. rewrite N2, N1. cbn [length seq filter]. rewrite Nat.sub_diag. cbn [nth].
    assert (F : filter (fun i => nth (i - S a) cs (-1) =? Z.of_nat k) (seq (S a) (length cs)) = filter (fun i => nth (i - a) (c :: cs) (-1) =? Z.of_nat k) (seq (S a) (length cs))).
    { apply filter_ext_in. intros i Hi. apply in_seq in Hi. replace (i - a)%nat with (S (i - S a)) by lia. reflexivity. }
    rewrite F, Z.eqb_sym. destruct (c =? Z.of_nat k); [rewrite <- app_assoc; reflexivity|reflexivity].
Qed.
