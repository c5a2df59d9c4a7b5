(* Proofs about the registration of data entries. *)
From Coq Require Import String.
From Verif Require Import Lib Model_Geometry Model_Store Model_Buffer Spec_Buffer.
Local Open Scope list_scope.

(* Well-formed name table: distinct names, distinct addresses, all valid. *)
Record wfreg (r : registry) : Prop := {
  wf_names : NoDup (map fst (r_map r));
  wf_addr : NoDup (map snd (r_map r));
  wf_range : forall n a, In (n, a) (r_map r) -> (a < r_entries r)%nat }.

Lemma find_in n r a : r_find n r = Some a -> In (n, a) (r_map r).
Proof.
  unfold r_find. destruct (find _ (r_map r)) as [[m b]|] eqn:E; [|discriminate]. cbn. intros H. injection H as ->.
  apply find_some in E as [H1 H2]. cbn in H2. apply String.eqb_eq in H2. now subst.
Qed.
Lemma in_find n r a : NoDup (map fst (r_map r)) -> In (n, a) (r_map r) -> r_find n r = Some a.
Proof.
  unfold r_find. induction (r_map r) as [|[m b] l IH]; intros Hn Hin; [destruct Hin|]. cbn [map] in Hn. inversion Hn; subst.
  cbn [find fst]. destruct (String.eqb_spec m n) as [->|Hmn].
  - destruct Hin as [E|Hin]; [now injection E as ->|]. exfalso. apply H1. change n with (fst (n, a)). now apply in_map.
  - destruct Hin as [E|Hin]; [injection E as -> ->; congruence|]. now apply IH.
Qed.
Lemma find_none n r : r_find n r = None -> ~ In n (map fst (r_map r)).
Proof.
  unfold r_find. destruct (find _ (r_map r)) as [|] eqn:E; [discriminate|]. intros _ Hin. apply in_map_iff in Hin as ([m b] & Hm & Hin).
  cbn in Hm. subst. pose proof (find_none _ _ E _ Hin) as H. cbn in H. now rewrite String.eqb_refl in H.
Qed.

Lemma request_spec n r : wfreg r -> let '(h, r1) := request n r in
  wfreg r1 /\ r_find n r1 = Some h /\ (h < r_entries r1)%nat /\
  (forall m, m <> n -> r_find m r1 = r_find m r) /\ (r_find n r = None \/ r_find n r = Some h) /\
  (r_entries r <= r_entries r1)%nat.
Proof.
  intros W. unfold request. destruct (r_find n r) as [a|] eqn:E.
  - pose proof (find_in _ _ _ E) as Hin. split; [exact W|]. split; [exact E|]. split; [now apply (wf_range r W n)|]. auto.
  - split; [|split; [|split; [|split; [|split]]]].
    + constructor; cbn [r_map r_entries map fst snd].
      * constructor; [now apply find_none|apply W].
      * constructor; [|apply W]. intros Hin. apply in_map_iff in Hin as ([m b] & Hb & Hin). cbn in Hb. subst.
        pose proof (wf_range r W _ _ Hin). lia.
      * intros m b [Hb|Hb]; [injection Hb as <- <-; lia|]. pose proof (wf_range r W _ _ Hb). lia.
    + unfold r_find. cbn [r_map find fst]. now rewrite String.eqb_refl.
    + cbn. lia.
    + intros m Hm. unfold r_find. cbn [r_map find fst]. destruct (String.eqb_spec n m); [congruence|reflexivity].
    + now left.
    + cbn. lia.
Qed.

Lemma requests_keep names : forall r n a, wfreg r -> r_find n r = Some a -> r_find n (snd (requests names r)) = Some a.
Proof.
  induction names as [|m names IH]; intros r n a W H; cbn [requests]; [exact H|].
  pose proof (request_spec m r W) as S. destruct (request m r) as [h r1] eqn:E. destruct S as (W1 & F1 & _ & O & Hn & _).
  specialize (IH r1 n a W1). destruct (requests names r1) as [hs r2]. cbn in *. apply IH.
  destruct (string_dec n m) as [->|Hd]; [|rewrite O; auto]. destruct Hn as [Hn|Hn]; congruence.
Qed.

Lemma requests_spec names : forall r, wfreg r -> let '(hs, r') := requests names r in
  wfreg r' /\ List.length hs = List.length names /\ (r_entries r <= r_entries r')%nat /\
  (forall i n, nth_error names i = Some n -> exists h, nth_error hs i = Some h /\ r_find n r' = Some h) /\
  (forall n, ~ In n names -> r_find n r' = r_find n r).
Proof.
  induction names as [|m names IH]; intros r W; cbn [requests].
  - split; [exact W|]. split; [reflexivity|]. split; [lia|]. split; [intros [|i] n H; discriminate|reflexivity].
  - pose proof (request_spec m r W) as S. destruct (request m r) as [h r1] eqn:E. destruct S as (W1 & F1 & _ & O & Hn & Hle).
    specialize (IH r1 W1). pose proof (requests_keep names r1 m h W1 F1) as K. destruct (requests names r1) as [hs r2]. cbn in K.
    destruct IH as (W2 & L & Hle2 & S & N).
    split; [exact W2|]. split; [cbn; lia|]. split; [lia|]. split.
    + intros [|i] n H; cbn in H.
      * injection H as <-. exists h. auto.
      * now apply S.
    + intros n Hni. rewrite N by (intros Hin; apply Hni; now right). apply O. intros ->. apply Hni. now left.
Qed.
