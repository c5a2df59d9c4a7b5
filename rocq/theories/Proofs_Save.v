From Coq Require Import QArith ZArith Lia Ascii String Decimal DecimalString DecimalNat List Bool.
From Verif Require Import Lib Model_Geometry Model_Save Spec_Save.
Import ListNotations.
Local Open Scope list_scope.
Local Notation length := List.length.

(* ---- numbers *)
Lemma number_char_cases c : number_char c -> Ascii.eqb c comma = false /\ Ascii.eqb c newline = false /\ isnum c = negb (Ascii.eqb c "+"%char).
Proof. intros H. cbn in H. repeat (destruct H as [<- |H]; [vm_compute; repeat split|]). destruct H. Qed.
Lemma next_number_text s : forall r, (forall c, In c s -> number_char c) -> next_number (s ++ comma :: r) = (without_plus s, r) /\ next_number (s ++ newline :: r) = (without_plus s, r).
Proof.
  induction s as [|c s IH]; intros r H; [split; reflexivity|]. destruct (number_char_cases c (H c (or_introl eq_refl))) as (A & B & C).
  destruct (IH r (fun x Hx => H x (or_intror Hx))) as [P1 P2]. split; (cbn [app next_number]; rewrite A, B; cbn [orb]; rewrite ?P1, ?P2, C; unfold without_plus; cbn [filter]; reflexivity).
Qed.
Lemma wp_nonempty s : number_text s -> without_plus s <> [].
Proof.
  intros (_ & c & Hc & Hn) E. assert (H : In c (without_plus s)); [|rewrite E in H; destruct H]. apply filter_In. split; [exact Hc|].
  destruct (Ascii.eqb_spec c "+"%char); [contradiction|reflexivity].
Qed.

(* ---- show_nat *)
Definition digit (c : ascii) : Prop := ((48 <=? nat_of_ascii c) && (nat_of_ascii c <=? 57))%nat = true.
Lemma uint_digits u : forall c, In c (list_ascii_of_string (NilEmpty.string_of_uint u)) -> number_char c /\ c <> "+"%char /\ digit c.
Proof.
  induction u; cbn [NilEmpty.string_of_uint list_ascii_of_string]; intros c H; [destruct H| | | | | | | | | |];
    (destruct H as [<- |H]; [split; [cbn; tauto|]; split; [discriminate|reflexivity]|now apply IHu]).
Qed.
Lemma show_nat_ne n : show_nat n <> [].
Proof.
  unfold show_nat. intros E. assert (H : Nat.to_uint n = Nil); [destruct (Nat.to_uint n); [reflexivity|discriminate..]|].
  assert (n = 0)%nat by (rewrite <- (DecimalNat.Unsigned.of_to n), H; reflexivity). subst n. discriminate.
Qed.
Lemma show_nat_text n : number_text (show_nat n).
Proof.
  split; [intros c H; now destruct (uint_digits _ c H)|]. destruct (show_nat n) as [|c l] eqn:E; [now apply show_nat_ne in E|]. exists c. split; [now left|].
  assert (H : In c (show_nat n)) by (rewrite E; now left). now destruct (uint_digits _ c H) as (_ & H2 & _).
Qed.
Lemma wp_show n : without_plus (show_nat n) = show_nat n.
Proof.
  assert (G : forall l, (forall c, In c l -> c <> "+"%char) -> without_plus l = l).
  { unfold without_plus. induction l as [|a l IH]; intros H; cbn [filter]; [reflexivity|]. destruct (Ascii.eqb_spec a "+"%char) as [E|E]; [exfalso; now apply (H a (or_introl eq_refl))|].
    cbn [negb]. rewrite IH; [reflexivity|]. intros c Hc. apply H. now right. }
  apply G. intros c H. now destruct (uint_digits _ c H) as (_ & H2 & _).
Qed.
Lemma digits_show n : digits (show_nat n) = show_nat n.
Proof.
  assert (G : forall l, (forall c, In c l -> digit c) -> digits l = l).
  { induction l as [|a l IH]; intros H; cbn [digits]; [reflexivity|]. rewrite (H a (or_introl eq_refl)). rewrite IH; [reflexivity|]. intros c Hc. apply H. now right. }
  apply G. intros c H. now destruct (uint_digits _ c H) as (_ & _ & H2).
Qed.
Lemma read_show n : read_int (show_nat n) = Some n.
Proof.
  unfold read_int. rewrite digits_show. destruct (show_nat n) as [|c l] eqn:E; [now apply show_nat_ne in E|]. rewrite <- E. unfold show_nat.
  rewrite string_of_list_ascii_of_string, NilEmpty.usu. f_equal. apply DecimalNat.Unsigned.of_to.
Qed.
Lemma int_field_show n r : int_field (show_nat n ++ comma :: r) = Some (n, r) /\ int_field (show_nat n ++ newline :: r) = Some (n, r).
Proof. unfold int_field. destruct (next_number_text (show_nat n) r (proj1 (show_nat_text n))) as [-> ->]. now rewrite wp_show, read_show. Qed.

(* ---- lists of numbers *)
Section VAL.
Context {V W : Type} (show : V -> chars) (val : chars -> W).
Lemma numbers_csv l : forall r, l <> [] -> (forall x, In x l -> number_text (show x)) ->
  numbers val (length l) (csv (map show l) ++ newline :: r) = Some (map (fun v => val (without_plus (show v))) l, r).
Proof.
  induction l as [|a l IH]; intros r Hne Hs; [now elim Hne|]. assert (Ha := Hs a (or_introl eq_refl)). pose proof (wp_nonempty _ Ha) as Wa. destruct l as [|b l].
  - cbn [map csv length numbers]. destruct (next_number_text (show a) r (proj1 Ha)) as [_ ->]. destruct (without_plus (show a)) eqn:E; [congruence|reflexivity].
  - cbn [map csv length]. rewrite <- app_assoc. cbn [app]. specialize (IH r ltac:(discriminate) (fun x Hx => Hs x (or_intror Hx))). cbn [map csv length] in IH.
    remember (S (length l)) as k. cbn [numbers]. destruct (next_number_text (show a) (csv (show b :: map show l) ++ newline :: r) (proj1 Ha)) as [Q _]. cbn [csv] in Q. rewrite Q, IH.
    destruct (without_plus (show a)) eqn:E; [congruence|]. reflexivity.
Qed.
Lemma numbers_commas l : forall r, (forall x, In x l -> number_text (show x)) ->
  numbers val (length l) (flat_map (fun x => show x ++ [comma]) l ++ r) = Some (map (fun v => val (without_plus (show v))) l, r).
Proof.
  induction l as [|a l IH]; intros r Hs; [reflexivity|]. assert (Ha := Hs a (or_introl eq_refl)). pose proof (wp_nonempty _ Ha) as Wa. cbn [flat_map length numbers].
  rewrite <- !app_assoc. cbn [app]. destruct (next_number_text (show a) (flat_map (fun x => show x ++ [comma]) l ++ r) (proj1 Ha)) as [-> _].
  destruct (without_plus (show a)) eqn:E; [congruence|]. rewrite IH by (intros x Hx; apply Hs; now right). cbn [map]. now rewrite E.
Qed.
Lemma frames_write : (forall v, number_text (show v)) -> forall fs r,
  frames_of val (length fs) (flat_map (write_frame show) fs ++ r) = Some (map (map (fun v => val (without_plus (show v)))) fs).
Proof.
  intros Hs. induction fs as [|f fs IH]; intros r; [reflexivity|]. cbn [flat_map length frames_of]. rewrite <- app_assoc. destruct f as [|a f].
  - cbn [write_frame app]. change (int_field ("0"%char :: newline :: flat_map (write_frame show) fs ++ r)) with (Some (0%nat, flat_map (write_frame show) fs ++ r)).
    cbn [numbers]. now rewrite IH.
  - unfold write_frame at 1. rewrite <- app_assoc. cbn [app]. destruct (int_field_show (length (a :: f)) ((csv (map show (a :: f)) ++ [newline]) ++ flat_map (write_frame show) fs ++ r)) as [-> _].
    rewrite <- app_assoc. cbn [app]. rewrite numbers_csv by (try discriminate; intros; apply Hs). now rewrite IH.
Qed.
End VAL.

(* ---- names *)
Definition plain_chars (l : chars) : Prop := forall c, In c l -> c <> comma /\ c <> newline /\ c <> cr.
Lemma next_string_text s : forall r, plain_chars s -> next_string (s ++ comma :: r) = (s, r) /\ next_string (s ++ newline :: r) = (s, r).
Proof.
  induction s as [|c s IH]; intros r H; [split; reflexivity|]. destruct (H c (or_introl eq_refl)) as (A & B & C). destruct (IH r (fun x Hx => H x (or_intror Hx))) as [P1 P2].
  split; (cbn [app next_string]; destruct (Ascii.eqb_spec c comma), (Ascii.eqb_spec c newline), (Ascii.eqb_spec c cr); try contradiction; cbn [orb]; now rewrite ?P1, ?P2).
Qed.
Lemma strings_csv l : forall r, l <> [] -> (forall x, In x l -> plain_chars x) -> strings (length l) (csv l ++ newline :: r) = (map string_of_list_ascii l, r).
Proof.
  induction l as [|a l IH]; intros r Hne Hs; [now elim Hne|]. assert (Ha := Hs a (or_introl eq_refl)). destruct l as [|b l].
  - cbn [csv length strings map]. now destruct (next_string_text a r Ha) as [_ ->].
  - specialize (IH r ltac:(discriminate) (fun x Hx => Hs x (or_intror Hx))). change (csv (a :: b :: l)) with (a ++ comma :: csv (b :: l)). rewrite <- app_assoc. cbn [app].
    remember (b :: l) as t. cbn [length strings]. destruct (next_string_text a (csv t ++ newline :: r) Ha) as [-> _]. now rewrite IH.
Qed.
Lemma plain_str n : plain n -> plain_chars (str n).
Proof. exact (fun H => H). Qed.
Lemma str_back l : map string_of_list_ascii (map str l) = l.
Proof. rewrite map_map. rewrite <- (map_id l) at 2. apply map_ext. intros s. apply string_of_list_ascii_of_string. Qed.
Lemma app_chars a b : string_of_list_ascii (a ++ b) = (string_of_list_ascii a ++ string_of_list_ascii b)%string.
Proof. induction a as [|c a IH]; cbn; [reflexivity|now rewrite IH]. Qed.
Lemma mag_back l : map string_of_list_ascii (map (fun n => str n ++ ["-"; "M"]%char) l) = map (fun n => (n ++ "-M")%string) l.
Proof. rewrite map_map. apply map_ext. intros s. rewrite app_chars. unfold str. now rewrite string_of_list_ascii_of_string. Qed.

Lemma load_write {V W} (showb : Q -> chars) (show : V -> chars) (valb : chars -> Q) (val : chars -> W) (d : sdata) (fs : list (list V)) (l0 : ldata W) :
  length (d_bounds d) = d_dims d -> d_bounds d <> [] -> d_vn d <> [] -> d_mn d ++ d_sn d <> [] ->
  (forall n, In n (d_vn d ++ d_mn d ++ d_sn d ++ d_in d) -> plain n) ->
  (forall q, number_text (showb q)) -> (forall v, number_text (show v)) ->
  load valb val (write showb show d fs) l0 =
    Some (mkLD (l_data l0 ++ map (map (fun v => val (without_plus (show v)))) fs)
       (map (fun m => (valb (without_plus (showb (fst m))), valb (without_plus (showb (snd m))))) (d_bounds d))
       (d_width d) (d_dims d) (d_nt d) (l_vn l0 ++ d_vn d) (l_sn l0 ++ map (fun n => (n ++ "-M")%string) (d_mn d) ++ d_sn d) (l_in l0 ++ d_in d ++ ["Proc"%string])).
Proof.
  intros Hdim Hb Hv Hs Hn Hshb Hsh. unfold write, write_header. unfold load. cbn [csv]. repeat (rewrite <- ?app_assoc; cbn [app]).
  rewrite (proj1 (int_field_show _ _)). rewrite (proj1 (int_field_show _ _)). rewrite (proj1 (int_field_show _ _)). rewrite (proj2 (int_field_show _ _)).
  rewrite <- Hdim at 1.
  replace (flat_map (fun m => showb (fst m) ++ [comma]) (d_bounds d)) with (flat_map (fun q => showb q ++ [comma]) (map fst (d_bounds d)))
    by (rewrite !flat_map_concat_map, map_map; reflexivity).
  rewrite <- (map_length fst (d_bounds d)). rewrite numbers_commas by (intros; apply Hshb).
  rewrite <- Hdim at 1. replace (map (fun m => showb (snd m)) (d_bounds d)) with (map showb (map snd (d_bounds d))) by apply map_map.
  rewrite <- (map_length snd (d_bounds d)). rewrite numbers_csv; [|destruct (d_bounds d); [congruence|discriminate]|intros; apply Hshb].
  rewrite (proj1 (int_field_show _ _)). rewrite <- (map_length str (d_vn d)). rewrite strings_csv; [|destruct (d_vn d); [congruence|discriminate]|].
  2: { intros x Hx. apply in_map_iff in Hx as (n & <- & Hx). apply plain_str, Hn. apply in_or_app. now left. }
  rewrite (proj1 (int_field_show _ _)). rewrite <- (map_length (fun n => str n ++ ["-"; "M"]%char) (d_mn d)), <- (map_length str (d_sn d)), <- app_length.
  rewrite strings_csv.
  2: { intros E. apply app_eq_nil in E as [E1 E2]. apply map_eq_nil in E1. apply map_eq_nil in E2. now rewrite E1, E2 in Hs. }
  2: { intros x Hx. apply in_app_or in Hx as [Hx|Hx]; apply in_map_iff in Hx as (n & <- & Hx).
       - intros c Hc. apply in_app_or in Hc as [Hc|Hc]; [apply (Hn n); [apply in_or_app; right; apply in_or_app; now left|exact Hc]|].
         destruct Hc as [<- |[<- |[]]]; repeat split; discriminate.
       - apply plain_str, Hn. apply in_or_app. right. apply in_or_app. right. apply in_or_app. now left. }
  rewrite (proj1 (int_field_show _ _)). replace (length (d_in d) + 1)%nat with (length (map str (d_in d) ++ [str "Proc"])) by (rewrite app_length, map_length; reflexivity).
  rewrite strings_csv; [|destruct (map str (d_in d)); discriminate|].
  2: { intros x Hx. apply in_app_or in Hx as [Hx|[<- |[]]].
       - apply in_map_iff in Hx as (n & <- & Hx). apply plain_str, Hn. apply in_or_app. right. apply in_or_app. right. apply in_or_app. now right.
       - intros c Hc. cbn in Hc. repeat (destruct Hc as [<- |Hc]; [repeat split; discriminate|]). destruct Hc. }
  rewrite <- (app_nil_r (flat_map (write_frame show) fs)). rewrite frames_write by exact Hsh.
  f_equal. f_equal.
  - rewrite !map_map. clear. induction (d_bounds d) as [|b l IH]; [reflexivity|]. cbn [map combine]. now rewrite IH.
  - now rewrite str_back.
  - now rewrite map_app, mag_back, str_back.
  - rewrite map_app, str_back. reflexivity.
Qed.
