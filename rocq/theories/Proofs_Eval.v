From Coq Require Import List Bool Ascii QArith Arith Lia.
From Verif Require Import Model_Eval Spec_Eval.
Import ListNotations.
Local Open Scope char_scope.

Scheme expr_mut := Induction for expr Sort Prop
with term_mut := Induction for term Sort Prop
with factor_mut := Induction for factor Sort Prop.
Combined Scheme expr_term_factor from expr_mut, term_mut, factor_mut.

(* --- text --- *)
Lemma text_eqb_eq : forall a b, text_eqb a b = true <-> a = b.
Proof.
  induction a as [|x a IH]; intros [|y b]; cbn [text_eqb]; split; intros H; try discriminate; auto.
  - apply andb_true_iff in H. destruct H as [H1 H2]. apply Ascii.eqb_eq in H1. apply IH in H2. now subst.
  - inversion H; subst. rewrite Ascii.eqb_refl. now apply IH.
Qed.
Lemma lookup_name number v a : cast number v a = name_value number v a.
Proof.
  unfold cast, name_value. induction v as [|[k x] v IH]; [reflexivity|].
  cbn [lookup find fst]. destruct (list_eq_dec ascii_dec k a) as [->|Hn].
  - rewrite (proj2 (text_eqb_eq a a) eq_refl). reflexivity.
  - destruct (text_eqb k a) eqn:H; [apply text_eqb_eq in H; contradiction|]. exact IH.
Qed.
Lemma skip_repeat : forall n s, skip_spaces (repeat " " n ++ s) = skip_spaces s.
Proof. induction n; intros; cbn; auto. Qed.
Lemma skip_hd : forall c s, c <> " " -> skip_spaces (c :: s) = c :: s.
Proof. intros. cbn. destruct (Ascii.eqb_spec c " "); [contradiction|reflexivity]. Qed.
Definition stop (k : text) : Prop := k = [] \/ exists c r, skip_spaces k = c :: r /\ special c = true.
Lemma getNext_stop : forall k, stop k -> getNext k = ([], skip_spaces k).
Proof.
  induction k as [|c k IH]; intros H; [reflexivity|].
  destruct H as [H|(d & r & H & Hs)]; [discriminate|].
  cbn [getNext skip_spaces] in *. destruct (c =? " ") eqn:E.
  - apply IH. right. eauto.
  - inversion H; subst. now rewrite Hs.
Qed.
Lemma plain_not c : plain c -> (c =? " ") = false /\ special c = false /\ (c =? "+") = false /\ (c =? "-") = false /\ (c =? "*") = false /\ (c =? "/") = false /\ (c =? "(") = false /\ (c =? ")") = false.
Proof.
  unfold plain, special. cbn [In]. intros H.
  assert (forall x, In x [" "; "+"; "-"; "*"; "/"; "("; ")"] -> (c =? x) = false).
  { intros x Hx. destruct (Ascii.eqb_spec c x); [subst; contradiction|reflexivity]. }
  repeat rewrite H0 by (cbn; tauto). repeat split.
Qed.
Lemma getNext_name : forall a k, Forall plain a -> stop k -> getNext (a ++ k) = (a, skip_spaces k).
Proof.
  induction a as [|c a IH]; intros k Ha Hk; [apply getNext_stop; assumption|].
  inversion Ha; subst. destruct (plain_not c) as (H & H0 & _); auto.
  cbn [app getNext]. rewrite H, H0, IH by assumption. reflexivity.
Qed.

(* --- fuel --- *)
Lemma parse_more : forall f f' s b p r, (f <= f')%nat -> parse f s b p = Gives r -> parse f' s b p = Gives r.
Proof.
  induction f as [|f IH]; intros f' s b p r Hle H; [discriminate|].
  destruct f' as [|f']; [lia|]. assert (Hle' : (f <= f')%nat) by lia.
  cbn [parse] in *. destruct s as [|c0 s0]; [exact H|].
  destruct (skip_spaces (c0 :: s0)) as [|c s']; [eapply IH; eauto|].
  destruct (c =? "(").
  - destruct (parse f s' true p_init) as [| |[x rr]] eqn:E; [discriminate|discriminate|].
    rewrite (IH _ _ _ _ _ Hle' E). destruct x; eapply IH; eauto.
  - destruct (c =? ")"); [exact H|].
    destruct (negb (c =? "+") && (negb (c =? "-") || negb (p_turn p)) && negb (c =? "*") && negb (c =? "/")).
    + destruct (getNext (c :: s')) as [a rr]. eapply IH; eauto.
    + destruct b; [exact H|]. destruct (if (c =? "+") || (c =? "-") then got_low c p else got_high c p); [|discriminate]. eapply IH; eauto.
Qed.
(* leading spaces before a symbol do not matter *)
Lemma parse_skip f k b p : stop k -> parse f (skip_spaces k) b p = parse f k b p.
Proof.
  intros [->|(c & r & H & Hs)]; [reflexivity|]. rewrite H. destruct f; [reflexivity|].
  cbn [parse]. destruct k as [|k0 k]; [discriminate|]. rewrite H.
  assert (c <> " ") by (intros ->; discriminate). rewrite skip_hd by assumption. reflexivity.
Qed.
Lemma stop_sym n c k : special c = true -> stop (repeat " " n ++ c :: k).
Proof. intros H. right. exists c, k. rewrite skip_repeat, skip_hd; [auto|]. intros ->; discriminate. Qed.
Lemma parse_spaces f n c k b p : special c = true -> parse f (repeat " " n ++ c :: k) b p = parse f (c :: k) b p.
Proof.
  intros H. rewrite <- (parse_skip f (repeat " " n ++ c :: k)) by (now apply stop_sym).
  rewrite skip_repeat, skip_hd; [reflexivity|]. intros ->; discriminate.
Qed.

(* --- the state of the parser --- *)
Section E.
Variable conv : text -> Q.
Variable v : vars.
Definition V (t : tree) (q : Q) : Prop := exists q', eval conv v t = Some q' /\ q' == q.
Inductive plus_ctx : list (text * option tree) -> Q -> Prop :=
| PC0 : plus_ctx [] 0
| PC1 l q sp s : V l q -> plus_ctx sp s -> plus_ctx ((["+"], Some l) :: sp) (s + q).
Definition low (c : ascii) := c = "+" \/ c = "-".
Definition high (c : ascii) := c = "*" \/ c = "/".
Inductive ready : pstate -> option (ascii * Q) -> Prop :=
| R0 : ready p_init None
| R1 sp c l s q a : low c -> plus_ctx sp s -> V l q -> a == s + q -> ready (mkP sp (Some (Node [c] (Some l) None)) false false) (Some (c, a)).
Inductive inv : pstate -> option (ascii * Q) -> bool -> Q -> Prop :=
| IA x q : V x q -> inv (mkP [] (Some x) true true) None false q
| IB h l r q : high h -> V (Node [h] (Some l) (Some r)) q -> inv (mkP [] (Some (Node [h] (Some l) (Some r))) false true) None true q
| IC sp c l r s q t a : low c -> plus_ctx sp s -> V l q -> V r t -> a == s + q ->
    inv (mkP sp (Some (Node [c] (Some l) (Some r))) false true) (Some (c, a)) false t
| ID sp c l h l' r' s q t a : low c -> plus_ctx sp s -> V l q -> high h -> V (Node [h] (Some l') (Some r')) t -> a == s + q ->
    inv (mkP (([c], Some l) :: sp) (Some (Node [h] (Some l') (Some r'))) false true) (Some (c, a)) true t.
Definition whole (o : option (ascii * Q)) (t : Q) : Q :=
  match o with None => t | Some (c, a) => if (c =? "+") then a + t else a - t end.
Lemma V_eq t q q' : V t q -> q == q' -> V t q'.
Proof. intros (x & H & E) E'. exists x. split; [exact H|]. now rewrite E. Qed.
Lemma eval_plus l r : eval conv v (Node ["+"] (Some l) (Some r)) = match eval conv v l, eval conv v r with Some a, Some b => Some (a + b) | _, _ => None end.
Proof. reflexivity. Qed.
Lemma eval_minus l r : eval conv v (Node ["-"] (Some l) (Some r)) = match eval conv v l, eval conv v r with Some a, Some b => Some (a - b) | _, _ => None end.
Proof. reflexivity. Qed.
Lemma eval_times l r : eval conv v (Node ["*"] (Some l) (Some r)) = match eval conv v l, eval conv v r with Some a, Some b => Some (a * b) | _, _ => None end.
Proof. reflexivity. Qed.
Lemma eval_over l r : eval conv v (Node ["/"] (Some l) (Some r)) =
  match eval conv v l, eval conv v r with Some a, Some b => if Qeq_bool b 0 then None else Some (a / b) | _, _ => None end.
Proof. reflexivity. Qed.
Lemma V_low c l r a b : low c -> V l a -> V r b -> V (Node [c] (Some l) (Some r)) (if (c =? "+") then a + b else a - b).
Proof.
  intros [->| ->] (x & Hx & Ex) (y & Hy & Ey); unfold V; rewrite ?eval_plus, ?eval_minus, Hx, Hy; eexists; (split; [reflexivity|]);
    cbn [Ascii.eqb Bool.eqb]; rewrite Ex, Ey; reflexivity.
Qed.
Lemma V_mul l r a b : V l a -> V r b -> V (Node ["*"] (Some l) (Some r)) (a * b).
Proof. intros (x & Hx & Ex) (y & Hy & Ey); unfold V; rewrite eval_times, Hx, Hy; eexists; split; [reflexivity|]. now rewrite Ex, Ey. Qed.
Lemma V_div l r a b : V l a -> V r b -> ~ b == 0 -> V (Node ["/"] (Some l) (Some r)) (a / b).
Proof.
  intros (x & Hx & Ex) (y & Hy & Ey) Hb; unfold V; rewrite eval_over, Hx, Hy.
  destruct (Qeq_bool y 0) eqn:E; [apply Qeq_bool_iff in E; rewrite Ey in E; contradiction|].
  eexists; split; try reflexivity. now rewrite Ex, Ey.
Qed.
Lemma plug_plus : forall sp s t q, plus_ctx sp s -> V t q -> V (plug sp t) (s + q).
Proof.
  intros sp s t q H. revert t q. induction H as [|l q1 sp s Hl Hc IH]; intros t q Ht; cbn [plug].
  - eapply V_eq; [exact Ht|]. ring.
  - eapply V_eq; [apply IH; apply (V_low "+" l t q1 q); [left; reflexivity|assumption|assumption]|]. cbn. ring.
Qed.
Lemma inv_head p o b t : inv p o b t -> exists h, p_head p = Some h /\ V h (whole o t).
Proof.
  intros H; destruct H; cbn [p_head p_top p_spine option_map plug whole].
  - eauto.
  - eauto.
  - eexists; split; [reflexivity|]. eapply V_eq; [apply plug_plus; [eassumption|apply V_low; eassumption]|].
    destruct (c =? "+"); rewrite H3; ring.
  - eexists; split; [reflexivity|]. eapply V_eq; [apply plug_plus; [eassumption|apply V_low; eassumption]|].
    destruct (c =? "+"); rewrite H4; ring.
Qed.
Lemma inv_turn p o b t : inv p o b t -> p_turn p = true.
Proof. intros H; destruct H; reflexivity. Qed.
Lemma ready_turn p o : ready p o -> p_turn p = false.
Proof. intros H; destruct H; reflexivity. Qed.
(* a factor after a start or a low operator *)
Lemma ready_expr p o x q : ready p o -> V x q -> inv (got_expr x p) o false q.
Proof. intros H Hx; destruct H; cbn; econstructor; eauto. Qed.
(* a low operator *)
Lemma inv_low p o b t c : inv p o b t -> low c -> (b = true -> match o with Some (d, _) => d = "+" | None => True end) ->
  exists p', got_low c p = Some p' /\ ready p' (Some (c, whole o t)).
Proof.
  intros H Hc Hb; destruct H; unfold got_low; cbn [p_top p_spine p_turn negb]; eexists; split; try reflexivity.
  - eapply R1; eauto; [constructor|cbn; ring].
  - eapply R1; eauto; [constructor|cbn; ring].
  - eapply R1; eauto; [apply V_low; eassumption|]. cbn [whole]. destruct (c0 =? "+"); rewrite H3; ring.
  - specialize (Hb eq_refl). subst c0. eapply R1; eauto; [constructor; eassumption|]. cbn. rewrite H4. ring.
Qed.
(* a high operator and a factor *)
Lemma inv_high p o b t c x q : inv p o b t -> high c -> V x q -> (c = "/" -> ~ q == 0) ->
  exists p', got_high c p = Some p' /\ p_turn p' = false /\ inv (got_expr x p') o true (if (c =? "*") then t * q else t / q).
Proof.
  intros H Hc Hx Hq.
  assert (HV : forall l, V l t -> V (Node [c] (Some l) (Some x)) (if (c =? "*") then t * q else t / q)).
  { intros l Hl. destruct Hc as [->| ->]; cbn; [apply V_mul|apply V_div]; auto. }
  destruct H; unfold got_high; cbn [p_top p_spine p_first p_turn negb].
  - destruct x0 as [xv xl xr]. eexists; split; [reflexivity|]. split; [reflexivity|]. apply IB; auto.
  - assert (is "*" [h] || is "/" [h] = true) as E by (destruct H as [->| ->]; reflexivity).
    rewrite E. eexists; split; [reflexivity|]. split; [reflexivity|]. apply IB; auto.
  - assert (is "*" [c0] || is "/" [c0] = false) as E by (destruct H as [->| ->]; reflexivity). rewrite E.
    assert (is "+" [c0] || is "-" [c0] = true) as E2 by (destruct H as [->| ->]; reflexivity). rewrite E2.
    eexists; split; [reflexivity|]. split; [reflexivity|]. eapply ID; eauto.
  - assert (is "*" [h] || is "/" [h] = true) as E by (destruct H2 as [->| ->]; reflexivity). rewrite E.
    eexists; split; [reflexivity|]. split; [reflexivity|]. eapply ID; eauto.
Qed.

Definition goes (n : nat) (s : text) (k : text) (fresh : bool) (p p' : pstate) : Prop :=
  forall f r, parse f k false p' = Gives r -> parse (f + n) (s ++ k) fresh p = Gives r.
Lemma goes_op f k p p' c : (low c /\ got_low c p = Some p') \/ (high c /\ got_high c p = Some p') -> p_turn p = true ->
  parse (S f) (c :: k) false p = parse f k false p'.
Proof.
  intros H Ht. assert (E : exists b, skip_spaces (c :: k) = c :: k /\ (c =? "(") = false /\ (c =? ")") = false /\ b = (c =? "+") || (c =? "-") /\
    negb (c =? "+") && (negb (c =? "-") || negb (p_turn p)) && negb (c =? "*") && negb (c =? "/") = false /\ (if b then got_low c p else got_high c p) = Some p').
  { rewrite Ht. destruct H as [[[->| ->] H]|[[->| ->] H]]; eexists; repeat split; try exact H; reflexivity. }
  destruct E as (b & E1 & E2 & E3 & E4 & E5 & E6).
  cbn [parse]. rewrite E1, E2, E3, E5, <- E4, E6. reflexivity.
Qed.

Lemma parse_all :
  (forall e s k q, writes_e e s -> fine_e e -> value_e conv v e = Some q -> stop k ->
    exists p' o b t, inv p' o b t /\ whole o t == q /\ goes (2 * length s) s k true p_init p' /\
      (b = true -> match e with ESub _ t => one_factor t | _ => True end -> match o with Some (d, _) => d = "+" | None => True end)) /\
  (forall t s k q p o fresh, writes_t t s -> fine_t t -> value_t conv v t = Some q -> stop k -> ready p o ->
    exists p' b, inv p' o b q /\ (one_factor t -> b = false) /\ goes (2 * length s) s k fresh p p') /\
  (forall f s k q fresh, writes_f f s -> fine_f f -> value_f conv v f = Some q -> stop k ->
    exists x, V x q /\ forall p, p_turn p = false -> goes (2 * length s) s k fresh p (got_expr x p)).
Proof.
  apply expr_term_factor.
  - (* ETerm *)
    intros t IH s k q Hw Hf Hv Hk. inversion Hw; subst.
    destruct (IH s k q p_init None true) as (p' & b & Hi & Hb & Hg); auto; [constructor|].
    exists p', None, b, q. split; [exact Hi|]. split; [reflexivity|]. split; [exact Hg|]. auto.
  - (* EAdd *)
    intros e IHe t IHt s k q Hw (Hfe & Hset & Hft) Hv Hk. inversion Hw as [|? ? s1 n s2 He Ht|]; subst.
    change (op2 Qplus (value_e conv v e) (value_t conv v t) = Some q) in Hv. destruct (value_e conv v e) as [qe|] eqn:Ee; [|discriminate]. destruct (value_t conv v t) as [qt|] eqn:Et; [|discriminate].
    cbn in Hv. inversion Hv; subst q; clear Hv.
    destruct (IHe s1 (repeat " " n ++ "+" :: s2 ++ k) qe) as (p1 & o1 & b1 & t1 & Hi1 & Hw1 & Hg1 & Hb1); auto; [apply stop_sym; reflexivity|].
    destruct (inv_low p1 o1 b1 t1 "+" Hi1) as (p2 & Hp2 & Hr2); [left; reflexivity|intros Hb; apply Hb1; auto|].
    destruct (IHt s2 k qt p2 (Some ("+", whole o1 t1)) false) as (p3 & b3 & Hi3 & Hb3 & Hg3); auto.
    exists p3, (Some ("+", whole o1 t1)), b3, qt. split; [exact Hi3|]. split; [cbn; rewrite Hw1; reflexivity|]. split; [|auto].
    intros f r Hr. apply Hg3 in Hr.
    assert (Hs : parse (S (f + 2 * length s2)) (repeat " " n ++ "+" :: s2 ++ k) false p1 = Gives r).
    { rewrite parse_spaces by reflexivity. rewrite (goes_op _ _ p1 p2 "+"); [exact Hr|left; split; [left; reflexivity|exact Hp2]|eapply inv_turn; eauto]. }
    apply Hg1 in Hs. rewrite <- !app_assoc. cbn [app]. eapply parse_more; [|exact Hs]. rewrite !app_length. cbn [length]. lia.
  - (* ESub *)
    intros e IHe t IHt s k q Hw (Hfe & Hset & Hft) Hv Hk. inversion Hw as [| |? ? s1 n s2 He Ht]; subst.
    change (op2 Qminus (value_e conv v e) (value_t conv v t) = Some q) in Hv. destruct (value_e conv v e) as [qe|] eqn:Ee; [|discriminate]. destruct (value_t conv v t) as [qt|] eqn:Et; [|discriminate].
    cbn in Hv. inversion Hv; subst q; clear Hv.
    destruct (IHe s1 (repeat " " n ++ "-" :: s2 ++ k) qe) as (p1 & o1 & b1 & t1 & Hi1 & Hw1 & Hg1 & Hb1); auto; [apply stop_sym; reflexivity|].
    destruct (inv_low p1 o1 b1 t1 "-" Hi1) as (p2 & Hp2 & Hr2); [right; reflexivity|intros Hb; apply Hb1; auto|].
    destruct (IHt s2 k qt p2 (Some ("-", whole o1 t1)) false) as (p3 & b3 & Hi3 & Hb3 & Hg3); auto.
    exists p3, (Some ("-", whole o1 t1)), b3, qt. split; [exact Hi3|]. split; [cbn; rewrite Hw1; reflexivity|].
    split; [|intros Hb Ho; rewrite (Hb3 Ho) in Hb; discriminate].
    intros f r Hr. apply Hg3 in Hr.
    assert (Hs : parse (S (f + 2 * length s2)) (repeat " " n ++ "-" :: s2 ++ k) false p1 = Gives r).
    { rewrite parse_spaces by reflexivity. rewrite (goes_op _ _ p1 p2 "-"); [exact Hr|left; split; [right; reflexivity|exact Hp2]|eapply inv_turn; eauto]. }
    apply Hg1 in Hs. rewrite <- !app_assoc. cbn [app]. eapply parse_more; [|exact Hs]. rewrite !app_length. cbn [length]. lia.
  - (* TFac *)
    intros f IH s k q p o fresh Hw Hf Hv Hk Hr. inversion Hw; subst.
    destruct (IH s k q fresh) as (x & Hx & Hg); auto.
    exists (got_expr x p), false. split; [eapply ready_expr; eauto|]. split; [auto|]. apply Hg. eapply ready_turn; eauto.
  - (* TMul *)
    intros t IHt f IHf s k q p o fresh Hw (Hft & Hff) Hv Hk Hr. inversion Hw as [|? ? s1 n s2 Ht Hf|]; subst.
    change (op2 Qmult (value_t conv v t) (value_f conv v f) = Some q) in Hv. destruct (value_t conv v t) as [qt|] eqn:Et; [|discriminate]. destruct (value_f conv v f) as [qf|] eqn:Ef; [|discriminate].
    cbn in Hv. inversion Hv; subst q; clear Hv.
    destruct (IHt s1 (repeat " " n ++ "*" :: s2 ++ k) qt p o fresh) as (p1 & b1 & Hi1 & _ & Hg1); auto; [apply stop_sym; reflexivity|].
    destruct (IHf s2 k qf false) as (x & Hx & Hg); auto.
    destruct (inv_high p1 o b1 qt "*" x qf Hi1) as (p2 & Hp2 & Ht2 & Hi2); [left; reflexivity|exact Hx|intros Hd; discriminate Hd|].
    exists (got_expr x p2), true. split; [exact Hi2|]. split; [intros []|].
    intros g r Hr'. apply (Hg p2 Ht2) in Hr'.
    assert (Hs : parse (S (g + 2 * length s2)) (repeat " " n ++ "*" :: s2 ++ k) false p1 = Gives r).
    { rewrite parse_spaces by reflexivity. rewrite (goes_op _ _ p1 p2 "*"); [exact Hr'|right; split; [left; reflexivity|exact Hp2]|eapply inv_turn; eauto]. }
    apply Hg1 in Hs. rewrite <- !app_assoc. cbn [app]. eapply parse_more; [|exact Hs]. rewrite !app_length. cbn [length]. lia.
  - (* TDiv *)
    intros t IHt f IHf s k q p o fresh Hw (Hft & Hff) Hv Hk Hr. inversion Hw as [| |? ? s1 n s2 Ht Hf]; subst.
    change (div2 (value_t conv v t) (value_f conv v f) = Some q) in Hv. unfold div2 in Hv. destruct (value_f conv v f) as [qf|] eqn:Ef; [|discriminate].
    destruct (Qeq_bool qf 0) eqn:Ez; [discriminate|]. destruct (value_t conv v t) as [qt|] eqn:Et; [|discriminate].
    cbn in Hv. inversion Hv; subst q; clear Hv.
    destruct (IHt s1 (repeat " " n ++ "/" :: s2 ++ k) qt p o fresh) as (p1 & b1 & Hi1 & _ & Hg1); auto; [apply stop_sym; reflexivity|].
    destruct (IHf s2 k qf false) as (x & Hx & Hg); auto.
    destruct (inv_high p1 o b1 qt "/" x qf Hi1) as (p2 & Hp2 & Ht2 & Hi2); [right; reflexivity|exact Hx|intros _ Hz; apply Qeq_bool_iff in Hz; congruence|].
    exists (got_expr x p2), true. split; [exact Hi2|]. split; [intros []|].
    intros g r Hr'. apply (Hg p2 Ht2) in Hr'.
    assert (Hs : parse (S (g + 2 * length s2)) (repeat " " n ++ "/" :: s2 ++ k) false p1 = Gives r).
    { rewrite parse_spaces by reflexivity. rewrite (goes_op _ _ p1 p2 "/"); [exact Hr'|right; split; [right; reflexivity|exact Hp2]|eapply inv_turn; eauto]. }
    apply Hg1 in Hs. rewrite <- !app_assoc. cbn [app]. eapply parse_more; [|exact Hs]. rewrite !app_length. cbn [length]. lia.
  - (* FAtom *)
    intros a s k q fresh Hw _ Hv Hk. inversion Hw as [a' n Hn|]; subst. destruct Hn as [Hne Hpl].
    exists (leaf a). split.
    { change (Some (name_value conv v a) = Some q) in Hv. inversion Hv; subst. eexists; split; [reflexivity|]. rewrite lookup_name. reflexivity. }
    intros p Hp f r Hr. destruct a as [|c a]; [contradiction|].
    destruct (plain_not c) as (E0 & E1 & E2 & E3 & E4 & E5 & E6 & E7); [now inversion Hpl|].
    assert (Hs : parse (S f) ((repeat " " n ++ c :: a) ++ k) fresh p = Gives r).
    { rewrite <- app_assoc. cbn [app parse]. rewrite skip_repeat.
      assert (Hn : exists c0 s0, repeat " " n ++ c :: a ++ k = c0 :: s0) by (destruct n; cbn; eauto).
      destruct Hn as (c0 & s0 & Hn). rewrite Hn. cbn [skip_spaces]. rewrite E0, E6, E7, E2, E3, E4, E5. cbn [negb andb orb].
      change (c :: a ++ k) with ((c :: a) ++ k). rewrite getNext_name by assumption. rewrite parse_skip by assumption. exact Hr. }
    eapply parse_more; [|exact Hs]. rewrite app_length. cbn [length]. lia.
  - (* FPar *)
    intros e IH s k q fresh Hw Hf Hv Hk. inversion Hw as [|e' s1 n m He]; subst.
    destruct (IH s1 (repeat " " m ++ ")" :: k) q He Hf Hv) as (p1 & o1 & b1 & t1 & Hi & Hwh & Hg & _); [apply stop_sym; reflexivity|].
    destruct (inv_head _ _ _ _ Hi) as (h & Hh & HV).
    exists h. split; [eapply V_eq; eauto|]. intros p Hp f r Hr.
    assert (Hin : parse (1 + 2 * length s1) (s1 ++ repeat " " m ++ ")" :: k) true p_init = Gives (Some h, k)).
    { apply Hg. rewrite parse_spaces by reflexivity. cbn. now rewrite Hh. }
    assert (Hs : parse (S (f + (1 + 2 * length s1))) ("(" :: s1 ++ repeat " " m ++ ")" :: k) fresh p = Gives r).
    { cbn [parse]. rewrite skip_hd by discriminate. cbn [Ascii.eqb]. change ("(" =? "(") with true. cbv iota.
      rewrite (parse_more (1 + 2 * length s1) (f + (1 + 2 * length s1)) _ _ _ _ ltac:(lia) Hin).
      eapply parse_more; [|exact Hr]. lia. }
    assert (Hx : (repeat " " n ++ ["("] ++ s1 ++ repeat " " m ++ [")"]) ++ k = repeat " " n ++ "(" :: s1 ++ repeat " " m ++ ")" :: k).
    { cbn [app]. rewrite <- app_assoc. cbn [app]. rewrite <- !app_assoc. reflexivity. }
    rewrite Hx. rewrite parse_spaces by reflexivity. eapply parse_more; [|exact Hs].
    rewrite !app_length. cbn [length]. lia.
Qed.
Lemma evaluate_written e s q : writes_e e s -> fine_e e -> value_e conv v e = Some q -> exists q', evaluate conv v s = Gives q' /\ q' == q.
Proof.
  intros Hw Hf Hv. destruct parse_all as (HE & _ & _).
  destruct (HE e s [] q Hw Hf Hv) as (p & o & b & t & Hi & Hq & Hg & _); [left; reflexivity|].
  destruct (inv_head _ _ _ _ Hi) as (h & Hh & x & Hx & Ex).
  assert (Hp : parse (1 + 2 * length s) (s ++ []) true p_init = Gives (Some h, [])).
  { apply Hg. cbn. now rewrite Hh. }
  rewrite app_nil_r in Hp. unfold evaluate.
  rewrite (parse_more (1 + 2 * length s) (2 * length s + 2) _ _ _ _ ltac:(lia) Hp).
  rewrite Hx. exists x. split; [reflexivity|]. now rewrite Ex.
Qed.
End E.

(* --- termination --- *)
Lemma skip_len : forall s, (length (skip_spaces s) <= length s)%nat.
Proof. induction s as [|c s IH]; cbn; [lia|]. destruct (c =? " "); cbn; lia. Qed.
Lemma getNext_len : forall s, (length (snd (getNext s)) <= length s)%nat.
Proof.
  induction s as [|c s IH]; cbn; [lia|]. destruct (c =? " "); [lia|]. destruct (special c); cbn; [lia|].
  destruct (getNext s) as [a r]. cbn in *. lia.
Qed.
Definition debt (p : pstate) : nat := if p_turn p then 0 else 1.
Lemma got_expr_turn x p : p_turn (got_expr x p) = negb (p_turn p).
Proof. unfold got_expr. destruct (p_top p) as [[? ? ?]|]; reflexivity. Qed.
Lemma parse_finishes : forall f s b p, (2 * length s + debt p < f)%nat ->
  parse f s b p <> Unfinished /\ (forall h r, parse f s b p = Gives (h, r) -> (length r <= length s)%nat).
Proof.
  induction f as [|f IH]; intros s b p Hf; [lia|].
  cbn [parse]. destruct s as [|c0 s0]; [split; [discriminate|intros h r H; inversion H; cbn; lia]|].
  pose proof (skip_len (c0 :: s0)) as Hk. destruct (skip_spaces (c0 :: s0)) as [|c s'] eqn:Es.
  { destruct (IH [] false (got_expr (leaf []) p)) as [H1 H2].
    { cbn [length] in *. unfold debt. destruct (p_turn _), (p_turn p); lia. }
    split; [exact H1|]. intros h r H. apply H2 in H. cbn [length] in *. lia. }
  cbn [length] in Hk, Hf. destruct (c =? "(") eqn:Ec.
  { destruct (IH s' true p_init) as [H1 H2]. { cbn. unfold debt in Hf. destruct (p_turn p); lia. }
    destruct (parse f s' true p_init) as [| |[x rr]] eqn:E; [congruence|split; [discriminate|intros ? ? H; discriminate]|].
    specialize (H2 x rr eq_refl).
    assert (Hd : forall pp, (2 * length rr + debt pp < f)%nat) by (intros pp; unfold debt in *; destruct (p_turn pp), (p_turn p); lia).
    destruct x as [x|].
    - destruct (IH rr false (got_expr x p) (Hd _)) as [H3 H4]. split; [exact H3|intros h r H; apply H4 in H; cbn [length]; lia].
    - destruct (IH rr false (mkP (p_spine p) (p_top p) (p_first p) (negb (p_turn p))) (Hd _)) as [H3 H4].
      split; [exact H3|intros h r H; apply H4 in H; cbn [length]; lia]. }
  destruct (c =? ")") eqn:Er; [split; [discriminate|intros h r H; inversion H; subst; cbn [length]; lia]|].
  destruct (negb (c =? "+") && (negb (c =? "-") || negb (p_turn p)) && negb (c =? "*") && negb (c =? "/")) eqn:Ecc.
  - pose proof (getNext_len s') as Hg. cbn [getNext].
    assert (Hsp : (c =? " ") = false).
    { clear - Es. revert Es. generalize (c0 :: s0). induction l as [|d l IHl]; cbn; [discriminate|]. destruct (d =? " ") eqn:E; [exact IHl|]. intros H; inversion H; now subst. }
    rewrite Hsp. apply andb_true_iff in Ecc. destruct Ecc as [Ecc Ediv]. apply andb_true_iff in Ecc. destruct Ecc as [Ecc Emul].
    apply andb_true_iff in Ecc. destruct Ecc as [Eplus Em].
    destruct (special c) eqn:Esp.
    + (* a minus where an expression is expected: nothing is consumed, but it is now the turn of an operator *)
      assert (Ht : p_turn p = false).
      { unfold special in Esp. rewrite Ec, Er in Esp. destruct (c =? "+"), (c =? "-"), (c =? "*"), (c =? "/"), (p_turn p); try discriminate; auto. }
      destruct (IH (c :: s') false (got_expr (leaf []) p)) as [H3 H4].
      { unfold debt in *. rewrite got_expr_turn. rewrite Ht in *. cbn [negb length]. lia. }
      split; [exact H3|]. intros h r H. apply H4 in H. cbn [length] in *. lia.
    + destruct (getNext s') as [a r0] eqn:Eg. cbn in Hg. destruct (IH r0 false (got_expr (leaf (c :: a)) p)) as [H3 H4].
      { unfold debt in *. destruct (p_turn (got_expr (leaf (c :: a)) p)), (p_turn p); lia. }
      split; [exact H3|]. intros h r H. apply H4 in H. cbn [length] in *. lia.
  - destruct b; [split; [discriminate|intros ? ? H; discriminate]|].
    destruct (if (c =? "+") || (c =? "-") then got_low c p else got_high c p) as [p'|]; [|split; [discriminate|intros ? ? H; discriminate]].
    destruct (IH s' false p') as [H3 H4]. { unfold debt in *. destruct (p_turn p'), (p_turn p); lia. }
    split; [exact H3|]. intros h r H. apply H4 in H. cbn [length] in *. lia.
Qed.
Lemma evaluate_finishes conv v s : evaluate conv v s <> Unfinished.
Proof.
  unfold evaluate. destruct (parse_finishes (2 * length s + 2) s true p_init) as [H _]; [cbn; lia|].
  destruct (parse (2 * length s + 2) s true p_init) as [| |[[t|] r]]; try congruence. destruct (eval conv v t); discriminate.
Qed.
