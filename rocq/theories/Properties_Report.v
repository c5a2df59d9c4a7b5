(* C122: tables. C123: printed times. C124: the length of a video. *)
From Coq Require Import QArith List Bool ZArith Ascii String Lia Lqa Decimal DecimalString.
From Verif Require Import Lib Model_Geometry Model_Save Proofs_Save Model_Run Spec_Run Properties_Registry Model_Report Spec_Report.
Import ListNotations.
Local Open Scope list_scope.

(* ---------- C122 ---------- *)
Lemma cut_plain c s : ~ In c s -> cut c s = [s].
Proof.
  induction s as [|a s IH]; intros H; [reflexivity|]. cbn. destruct (Ascii.eqb_spec a c) as [->|N]; [exfalso; apply H; now left|].
  rewrite IH; [reflexivity|]. intros C. apply H. now right.
Qed.
Lemma cut_app c s t : ~ In c s -> cut c (s ++ c :: t) = s :: cut c t.
Proof.
  induction s as [|a s IH]; intros H; cbn.
  - rewrite Ascii.eqb_refl. reflexivity.
  - destruct (Ascii.eqb_spec a c) as [->|N]; [exfalso; apply H; now left|]. rewrite IH; [reflexivity|]. intros C. apply H. now right.
Qed.
Lemma cut_join c s fs : ~ In c s -> (forall f, In f fs -> ~ In c f) -> cut c (s ++ flat_map (fun f => c :: f) fs) = s :: fs.
Proof.
  revert s. induction fs as [|f fs IH]; intros s H F; cbn.
  - rewrite app_nil_r. apply cut_plain. exact H.
  - rewrite cut_app by exact H. rewrite IH; [reflexivity|apply F; now left|]. intros g Hg. apply F. now right.
Qed.
Lemma flat_map_flat {A B C} (f : B -> list C) (g : A -> list B) (h : A -> list C) l : (forall a, In a l -> h a = flat_map f (g a)) ->
  flat_map h l = flat_map f (flat_map g l).
Proof.
  induction l as [|a l IH]; intros H; [reflexivity|]. cbn. rewrite flat_map_app, (H a), IH; [reflexivity| |now left]. intros b Hb. apply H. now right.
Qed.
Lemma header_eq e : comma :: print_name e = flat_map (fun f => comma :: f) (header_fields e).
Proof. unfold print_name, header_fields. destruct (e_percent e); cbn; rewrite ?app_nil_r; [|reflexivity]. reflexivity. Qed.
Lemma cell_eq show e i : comma :: print_cell show e i = flat_map (fun f => comma :: f) (cell_fields show e i).
Proof. unfold print_cell, cell_fields. destruct (nth_error (e_data e) i), (e_percent e); cbn; rewrite ?app_nil_r; reflexivity. Qed.

Lemma plain_nil : plain_text []. Proof. split; intros []. Qed.
Lemma plain_app s t : plain_text s -> plain_text t -> plain_text (s ++ t).
Proof. intros [A B] [C D]. split; rewrite in_app_iff; tauto. Qed.
Lemma show_nat_plain n : plain_text (show_nat n).
Proof.
  split; intros H; unfold show_nat in H; apply uint_digits in H as (_ & _ & H); discriminate H.
Qed.
Lemma header_plain show b e f : plain_db show b -> In e (b_cols b) -> In f (header_fields e) -> plain_text f.
Proof.
  intros (_ & P & _) He Hf. specialize (P e He). unfold header_fields in Hf. destruct (e_percent e); cbn in Hf.
  - destruct Hf as [<-|[<-|[]]]; [exact P|]. apply plain_app; [exact P|]. split; intros [C|[C|[C|[C|[]]]]]; discriminate C.
  - destruct Hf as [<-|[]]. exact P.
Qed.
Lemma cell_plain show b e i f : plain_db show b -> In f (cell_fields show e i) -> plain_text f.
Proof.
  intros (_ & _ & P) Hf. unfold cell_fields in Hf. destruct (e_percent e), (nth_error (e_data e) i); cbn in Hf.
  - destruct Hf as [<-|[<-|[]]]; [apply P|]. apply plain_app; [apply P|]. split; intros [C|[]]; discriminate C.
  - destruct Hf as [<-|[<-|[]]]; apply plain_nil.
  - destruct Hf as [<-|[]]; apply P.
  - destruct Hf as [<-|[]]; apply plain_nil.
Qed.
Lemma no_newline s fs : plain_text s -> (forall f, In f fs -> plain_text f) -> ~ In newline (s ++ flat_map (fun f => comma :: f) fs).
Proof.
  intros [_ A] H C. apply in_app_or in C as [C|C]; [contradiction|]. apply in_flat_map in C as (f & Hf & [C|C]); [discriminate C|]. apply (H f Hf). exact C.
Qed.

(* The printed file is one line with the names and one line for each row, all with the fields of the columns. *)
Theorem C122_table : forall show b, plain_db show b ->
  csv_file (print_csv show b)
    ((b_row b :: flat_map header_fields (b_cols b)) ::
     map (fun i => show_nat i :: flat_map (fun e => cell_fields show e i) (b_cols b)) (seq 0 (b_n b))).
Proof.
  intros show b P. unfold print_csv.
  rewrite (flat_map_flat (fun f => comma :: f) header_fields _ (b_cols b)) by (intros; apply header_eq).
  rewrite app_assoc. assert (PH : forall f, In f (flat_map header_fields (b_cols b)) -> plain_text f).
  { intros f Hf. apply in_flat_map in Hf as (e & He & Hf). eapply header_plain; eassumption. }
  rewrite <- (cut_join comma (b_row b)); [|apply P|intros f Hf; apply PH; exact Hf].
  apply csv_line; [apply no_newline; [apply P|exact PH]|].
  induction (seq 0 (b_n b)) as [|i l IH]; cbn [flat_map map]; [constructor|].
  unfold print_row at 1. rewrite (flat_map_flat (fun f => comma :: f) (fun e => cell_fields show e i) _ (b_cols b)) by (intros; apply cell_eq).
  assert (PC : forall f, In f (flat_map (fun e => cell_fields show e i) (b_cols b)) -> plain_text f).
  { intros f Hf. apply in_flat_map in Hf as (e & He & Hf). eapply cell_plain; eassumption. }
  rewrite <- (cut_join comma (show_nat i)); [|apply show_nat_plain|intros f Hf; apply PC; exact Hf].
  rewrite <- !app_assoc. cbn [app]. rewrite app_assoc. apply csv_line; [apply no_newline; [apply show_nat_plain|exact PC]|exact IH].
Qed.
Print Assumptions C122_table.


Lemma csv_first_line l1 l2 s1 s2 : ~ In newline l1 -> ~ In newline l2 -> l1 ++ newline :: s1 = l2 ++ newline :: s2 -> l1 = l2 /\ s1 = s2.
Proof.
  revert l2. induction l1 as [|a l1 IH]; intros [|b l2] A B E; cbn in E.
  - injection E as ->. auto.
  - injection E as <- _. exfalso. apply B. now left.
  - injection E as -> _. exfalso. apply A. now left.
  - injection E as -> E. destruct (IH l2) as [-> ->]; [intros C; apply A; now right|intros C; apply B; now right|exact E|auto].
Qed.
Lemma csv_unique s l1 l2 : csv_file s l1 -> csv_file s l2 -> l1 = l2.
Proof.
  intros H. revert l2. induction H as [|l s rest N _ IH]; intros l2 H2.
  - inversion H2 as [|l s rest N F E]; [reflexivity|]. destruct l; discriminate E.
  - inversion H2 as [E|l' s' rest' N' F' E]; [destruct l; discriminate E|].
    apply csv_first_line in E as [-> ->]; [|exact N'|exact N]. now rewrite (IH _ F').
Qed.
Lemma fields_length show e i : length (cell_fields show e i) = length (header_fields e).
Proof. unfold cell_fields, header_fields. now destruct (e_percent e), (nth_error (e_data e) i). Qed.

(* Every reading of the file as lines of fields has one line for the names and one per row, all with the same number of fields;
   the row i (after the names) begins with its number. *)
Theorem C122_rectangular : forall show b lines, plain_db show b -> csv_file (print_csv show b) lines ->
  length lines = S (b_n b) /\
  (forall l, In l lines -> length l = S (length (b_cols b) + length (filter (fun e => match e_percent e with Some _ => true | None => false end) (b_cols b)))) /\
  forall i, (i < b_n b)%nat -> nth_error (nth (S i) lines []) 0 = Some (show_nat i).
Proof.
  intros show b lines P H. rewrite <- (csv_unique _ _ _ (C122_table show b P) H). cbn [length]. rewrite map_length, seq_length. split; [reflexivity|].
  assert (L : length (flat_map header_fields (b_cols b)) = (length (b_cols b) + length (filter (fun e => match e_percent e with Some _ => true | None => false end) (b_cols b)))%nat).
  { clear. induction (b_cols b) as [|e r IH]; [reflexivity|]. cbn [flat_map length filter]. rewrite app_length, IH. unfold header_fields.
    destruct (e_percent e); cbn [length]; lia. }
  split.
  - intros l [<-|Hl]; [cbn [length]; now rewrite L|]. apply in_map_iff in Hl as (i & <- & _). cbn [length]. rewrite <- L. f_equal.
    clear. induction (b_cols b) as [|e r IH]; [reflexivity|]. cbn [flat_map]. now rewrite !app_length, fields_length, IH.
  - intros i Hi. cbn [nth]. rewrite (nth_indep _ [] (show_nat 0 :: flat_map (fun e => cell_fields show e 0) (b_cols b))) by (now rewrite map_length, seq_length).
    rewrite (map_nth (fun i => show_nat i :: flat_map (fun e => cell_fields show e i) (b_cols b))). rewrite seq_nth by exact Hi. reflexivity.
Qed.
Print Assumptions C122_rectangular.

(* Building a table: columns appear in the order they were added, with the values given; percentages concern the last column only and keep its values. *)
Theorem C122_build : forall b name data total n,
  (b_cols (addColumn name data b) = b_cols b ++ [mkEntry name None data] /\ b_n (addColumn name data b) = b_n b /\ b_row (addColumn name data b) = b_row b) /\
  (b_cols (use_percent total (addColumn name data b)) = b_cols b ++ [mkEntry name (Some total) data] /\
   b_n (use_percent total (addColumn name data b)) = b_n b /\ b_row (use_percent total (addColumn name data b)) = b_row b) /\
  (b_cols (setNRows n b) = b_cols b /\ b_n (setNRows n b) = n /\ b_row (setNRows n b) = b_row b) /\
  (b_cols (setRowName name b) = b_cols b /\ b_n (setRowName name b) = b_n b /\ b_row (setRowName name b) = name) /\
  (b_cols (clear_db b) = [] /\ b_n (clear_db b) = b_n b) /\
  (forall ty, ty = "I"%char \/ ty = "R"%char -> b_cols (addColumn_type name ty b) = b_cols b ++ [mkEntry name None (repeat 0%Q (b_n b))]) /\
  (forall ty, ty <> "I"%char -> ty <> "R"%char -> addColumn_type name ty b = b).
Proof.
  intros b name data total n. repeat split.
  - unfold use_percent, addColumn. cbn [b_cols]. rewrite rev_app_distr. cbn. now rewrite rev_involutive.
  - unfold use_percent, addColumn. cbn [b_cols]. rewrite rev_app_distr. reflexivity.
  - unfold use_percent, addColumn. cbn [b_cols]. rewrite rev_app_distr. reflexivity.
  - intros ty [->| ->]; reflexivity.
  - intros ty A B. unfold addColumn_type. apply Ascii.eqb_neq in A, B. now rewrite A, B.
Qed.
Print Assumptions C122_build.

(* A value that a row of a column lacks is printed as an empty field. *)
Theorem C122_missing : forall show e i, (length (e_data e) <= i)%nat -> forall f, In f (cell_fields show e i) -> f = [].
Proof.
  intros show e i H f Hf. apply nth_error_None in H. unfold cell_fields in Hf. rewrite H in Hf. destruct (e_percent e); cbn in Hf; intuition.
Qed.
Print Assumptions C122_missing.

Definition showq (q : Q) : chars := show_nat (Z.to_nat (Qfloor q)).
Definition db_case : database :=
  addColumn (list_ascii_of_string "N") [7%Q] (use_percent 50 (addColumn (list_ascii_of_string "Time") [10; 40] (setNRows 2 (setRowName (list_ascii_of_string "Proc") new_db)))).
Example C122_case : plain_db showq db_case /\
  map (fun c => nat_of_ascii c) (print_csv showq db_case) = map (fun c => nat_of_ascii c) (
    list_ascii_of_string "Proc,Time,Time - %,N" ++ newline :: list_ascii_of_string "0,10,20%,7" ++ newline :: list_ascii_of_string "1,40,80%," ++ [newline]).
Proof.
  split; [|vm_compute; reflexivity]. split; [split; intros H; cbn in H; intuition discriminate|]. split; [|intros q; apply show_nat_plain].
  intros e [<-|[<-|[]]]; split; intros H; cbn in H; intuition discriminate.
Qed.
Print Assumptions C122_case.

(* ---------- C123 ---------- *)
Lemma decimal_acc u : forall a, fold_left (fun a c => (10 * a + (nat_of_ascii c - 48))%nat) (list_ascii_of_string (NilEmpty.string_of_uint u)) a = Nat.of_uint_acc u a.
Proof. induction u; intros a; [reflexivity|..]; cbn [NilEmpty.string_of_uint list_ascii_of_string fold_left Nat.of_uint_acc]; rewrite IHu, Nat.tail_mul_spec; f_equal; cbn; lia. Qed.
Lemma decimal_show n : decimal (show_nat n) = n.
Proof. unfold decimal, show_nat. rewrite decimal_acc. change (Nat.of_uint (Nat.to_uint n) = n). apply DecimalNat.Unsigned.of_to. Qed.
Lemma show_digits n : all_digits (show_nat n).
Proof.
  split; [apply show_nat_ne|]. unfold show_nat. induction (Nat.to_uint n); cbn; intros c Hc; try contradiction;
    (destruct Hc as [<-|Hc]; [cbn; lia|now apply IHu]).
Qed.
Lemma show_small n : (n < 10)%nat -> length (show_nat n) = 1%nat.
Proof. intros H. do 10 (destruct n as [|n]; [reflexivity|]). lia. Qed.
Lemma show_two n : (10 <= n < 100)%nat -> length (show_nat n) = 2%nat.
Proof.
  intros H. assert (A : forall k, (k < 100)%nat -> (10 <=? k)%nat = true -> (length (show_nat k) =? 2)%nat = true).
  { intros k Hk. assert (I : In k (seq 0 100)) by (apply in_seq; lia).
    assert (F : forallb (fun k => implb (10 <=? k)%nat (length (show_nat k) =? 2)%nat) (seq 0 100) = true) by (vm_compute; reflexivity).
    rewrite forallb_forall in F. specialize (F k I). intros T. now rewrite T in F. }
  apply Nat.eqb_eq, A; [lia|apply Nat.leb_le; lia].
Qed.
Lemma digits_zero s : all_digits s -> all_digits (zero_char :: s).
Proof. intros [_ A]. split; [discriminate|]. intros c [<-|H]; [cbn; lia|now apply A]. Qed.
Lemma decimal_zero s : decimal (zero_char :: s) = decimal s. Proof. reflexivity. Qed.
Lemma digits_no_colon s : all_digits s -> ~ In colon s.
Proof. intros [_ A] H. apply A in H. cbn in H. lia. Qed.
Definition two (n : nat) : chars := if (n <? 10)%nat then zero_char :: show_nat n else show_nat n.
Lemma two_ok n : (n < 60)%nat -> all_digits (two n) /\ decimal (two n) = n /\ length (two n) = 2%nat.
Proof.
  intros H. unfold two. destruct (Nat.ltb_spec n 10).
  - split; [apply digits_zero, show_digits|]. rewrite decimal_zero, decimal_show. split; [reflexivity|]. cbn [length]. now rewrite show_small.
  - split; [apply show_digits|]. rewrite decimal_show. split; [reflexivity|]. apply show_two. lia.
Qed.
Lemma two_any n : all_digits (two n) /\ decimal (two n) = n.
Proof.
  unfold two. destruct (n <? 10)%nat; [split; [apply digits_zero|rewrite decimal_zero]|split]; try apply show_digits; apply decimal_show.
Qed.
Local Open Scope Q_scope.
Lemma print_time_eq s : 60 <= s -> exists h m c : nat, Qfloor s = (3600 * Z.of_nat h + 60 * Z.of_nat m + Z.of_nat c)%Z /\ (m < 60)%nat /\ (c < 60)%nat /\
  print_time s = (if (h =? 0)%nat then [] else two h ++ [colon]) ++ (if (h =? 0)%nat then show_nat m else two m) ++ colon :: two c.
Proof.
  intros H. unfold print_time. set (hh := Qfloor (s / 3600)). set (s1 := s - inject_Z (3600 * hh)). set (mm := Qfloor (s1 / 60)). set (s2 := s1 - inject_Z (60 * mm)).
  assert (H0 : inject_Z hh <= s / 3600 < inject_Z hh + 1).
  { split; [apply Qfloor_le|]. unfold hh. setoid_replace (inject_Z (Qfloor (s / 3600)) + 1) with (inject_Z (Qfloor (s / 3600) + 1)) by (now rewrite inject_Z_plus). apply Qlt_floor. }
  assert (S1 : 0 <= s1 < 3600). { unfold s1. rewrite inject_Z_mult. change (inject_Z 3600) with 3600. setoid_replace (s) with (3600 * (s / 3600)) at 1 2 by field. lra. }
  assert (H1 : inject_Z mm <= s1 / 60 < inject_Z mm + 1).
  { split; [apply Qfloor_le|]. unfold mm. setoid_replace (inject_Z (Qfloor (s1 / 60)) + 1) with (inject_Z (Qfloor (s1 / 60) + 1)) by (now rewrite inject_Z_plus). apply Qlt_floor. }
  assert (S2 : 0 <= s2 < 60). { unfold s2. rewrite inject_Z_mult. change (inject_Z 60) with 60. setoid_replace (s1) with (60 * (s1 / 60)) at 1 2 by field. lra. }
  assert (hh0 : (0 <= hh)%Z). { change 0%Z with (Qfloor 0). apply Qfloor_resp_le. apply Qle_shift_div_l; [reflexivity|lra]. }
  assert (mm0 : (0 <= mm < 60)%Z).
  { split; [change 0%Z with (Qfloor 0); apply Qfloor_resp_le; apply Qle_shift_div_l; [reflexivity|lra]|].
    assert (s1 / 60 < 60) by (apply Qlt_shift_div_r; [reflexivity|lra]). rewrite Zlt_Qlt. change (inject_Z 60) with 60. lra. }
  assert (E2 : Qtrunc s2 = Qfloor s2).
  { unfold Qtrunc. destruct (Qltb_spec s2 0) as [B|B]; [|reflexivity]. destruct S2 as [S2 _]. exfalso. now apply (Qlt_not_le _ _ B). }
  assert (c0 : (0 <= Qfloor s2 < 60)%Z).
  { split; [change 0%Z with (Qfloor 0); apply Qfloor_resp_le; apply S2|]. rewrite Zlt_Qlt. change (inject_Z 60) with 60. eapply Qle_lt_trans; [apply Qfloor_le|apply S2]. }
  assert (FS : Qfloor s = (3600 * hh + 60 * mm + Qfloor s2)%Z).
  { assert (E : s == inject_Z (3600 * hh + 60 * mm) + s2). { unfold s2, s1. rewrite inject_Z_plus. ring. }
    rewrite E. clear. generalize (3600 * hh + 60 * mm)%Z. intros z. destruct s2 as [a b]. unfold Qfloor, inject_Z, Qplus. cbn.
    rewrite Z.mul_1_r. rewrite Z.add_comm, Z.div_add by lia. lia. }
  exists (Z.to_nat hh), (Z.to_nat mm), (Z.to_nat (Qfloor s2)). split; [rewrite !Z2Nat.id; lia|]. split; [lia|]. split; [lia|].
  rewrite E2. assert (Qltb s2 10 = (Z.to_nat (Qfloor s2) <? 10)%nat) as ->.
  { destruct (Nat.ltb_spec (Z.to_nat (Qfloor s2)) 10) as [L|L].
    - destruct (Qltb_spec s2 10) as [B|B]; [reflexivity|]. exfalso. apply B. assert (L' : (Qfloor s2 + 1 <= 10)%Z) by lia. eapply Qlt_le_trans; [apply Qlt_floor|]. rewrite Zle_Qle in L'. exact L'.
    - destruct (Qltb_spec s2 10) as [B|B]; [|reflexivity]. assert (L' : (10 <= Qfloor s2)%Z) by lia. rewrite Zle_Qle in L'. change (inject_Z 10) with 10 in L'.
      pose proof (Qfloor_le s2). lra. }
  assert ((hh =? 0)%Z = (Z.to_nat hh =? 0)%nat) as -> by (destruct (Z.eqb_spec hh 0), (Nat.eqb_spec (Z.to_nat hh) 0); lia).
  assert ((0 <? hh)%Z = negb (Z.to_nat hh =? 0)%nat) as -> by (destruct (Z.ltb_spec 0 hh), (Nat.eqb_spec (Z.to_nat hh) 0); cbn; lia).
  assert ((hh <? 10)%Z = (Z.to_nat hh <? 10)%nat) as -> by (destruct (Z.ltb_spec hh 10), (Nat.ltb_spec (Z.to_nat hh) 10); lia).
  assert ((mm <? 10)%Z = (Z.to_nat mm <? 10)%nat) as -> by (destruct (Z.ltb_spec mm 10), (Nat.ltb_spec (Z.to_nat mm) 10); lia).
  unfold two. destruct (Z.to_nat hh =? 0)%nat, (Z.to_nat hh <? 10)%nat, (Z.to_nat mm <? 10)%nat; cbn [negb andb app]; rewrite <- ?app_assoc; cbn [app]; rewrite <- ?app_assoc; reflexivity.
Qed.

(* A time of a minute or more is printed as minutes:seconds, from an hour on as hours:minutes:seconds; each is a number, the seconds (and, after hours,
   the minutes) have two digits and are below sixty; read as sixties they give the whole seconds of the time, that is at most a second is lost. *)
Theorem C123_time : forall s, 60 <= s ->
  Z.of_nat (read_time (print_time s)) = Qfloor s /\
  (forall f, In f (cut ":"%char (print_time s)) -> all_digits f) /\
  (forall f, In f (tl (cut ":"%char (print_time s))) -> length f = 2%nat /\ (decimal f < 60)%nat) /\
  length (cut ":"%char (print_time s)) = (if Qle_bool 3600 s then 3 else 2)%nat.
Proof.
  intros s H. destruct (print_time_eq s H) as (h & m & c & F & Hm & Hc & E).
  assert (B : Qle_bool 3600 s = negb (h =? 0)%nat).
  { destruct (Nat.eqb_spec h 0) as [->|N]; cbn [negb].
    - destruct (Qle_bool 3600 s) eqn:B; [|reflexivity]. apply Qle_bool_iff in B. apply Qfloor_resp_le in B. change (Qfloor 3600) with 3600%Z in B. lia.
    - apply Qle_bool_iff. eapply Qle_trans; [|apply Qfloor_le]. rewrite F. change 3600 with (inject_Z 3600). rewrite <- Zle_Qle. lia. }
  unfold read_time. rewrite B, E. change ":"%char with colon. destruct (two_ok m Hm) as (M1 & M2 & M3). destruct (two_ok c Hc) as (C1 & C2 & C3). destruct (two_any h) as (T1 & T2).
  destruct (Nat.eqb_spec h 0) as [->|N]; cbn [negb app].
  - rewrite cut_app, cut_plain by (apply digits_no_colon; (apply show_digits || exact C1)). cbn [fold_left tl length]. rewrite decimal_show, C2.
    split; [lia|]. split; [intros f [<-|[<-|[]]]; [apply show_digits|exact C1]|]. split; [|reflexivity]. intros f [<-|[]]. rewrite C2. auto.
  - rewrite <- app_assoc. cbn [app]. rewrite cut_app by (apply digits_no_colon, T1). rewrite cut_app, cut_plain by (apply digits_no_colon; assumption). cbn [fold_left tl length]. rewrite T2, M2, C2.
    split; [lia|]. split; [intros f [<-|[<-|[<-|[]]]]; assumption|]. split; [|reflexivity]. intros f [<-|[<-|[]]]; rewrite ?C2, ?M2; auto.
Qed.
Print Assumptions C123_time.
Example C123_case : print_time (7384 # 1) = list_ascii_of_string "02:03:04" /\ print_time (181 # 2) = list_ascii_of_string "1:30" /\
  print_time (360061 # 1) = list_ascii_of_string "100:01:01" /\ Z.of_nat (read_time (print_time (7384 # 1))) = 7384%Z.
Proof. repeat split; vm_compute; reflexivity. Qed.
Print Assumptions C123_case.

(* ---------- C124 ---------- *)
(* Without a frame rate the delay between recordings is the recorded time divided by twenty times the length of the video; a negative length means
   the recorded time itself; a frame rate of the user's overrides both. *)
Theorem C124_delay : forall time sr len fps,
  (fps <= 0 -> 0 <= sr < time -> 0 < len -> exists d, video_object time sr len fps = Some d /\ d_setup d = false /\ d_delay d == (time - sr) / (20 * len)) /\
  (fps <= 0 -> 0 <= sr < time -> len < 0 -> exists d, video_object time sr len fps = Some d /\ d_setup d = false /\ d_delay d == 1 # 20) /\
  (0 < fps -> exists d, video_object time sr len fps = Some d /\ d_setup d = false /\ d_delay d == 1 / fps).
Proof.
  intros time sr len fps.
  assert (V : 0 <= sr < time -> (if Qltb 0 sr then time - sr else time) == time - sr /\ 0 < (if Qltb 0 sr then time - sr else time)).
  { intros [A B]. destruct (Qltb_spec 0 sr); split; try lra. }
  assert (SF : forall r, 0 < r -> exists d, setFPS r (new_dob false) = Some d /\ d_setup d = false /\ d_delay d == 1 / r).
  { intros r Hr. unfold setFPS. destruct (Qeq_bool r 0) eqn:B; [apply Qeq_bool_iff in B; lra|]. eexists. split; [reflexivity|]. split; reflexivity. }
  unfold video_object, video_fps. split; [|split].
  - intros F H L. destruct (V H) as [V1 V2]. destruct (Qltb_spec 0 fps) as [C|_]; [lra|]. destruct (Qltb_spec len 0) as [C|_]; [lra|].
    set (v := if Qltb 0 sr then time - sr else time) in *. clearbody v. cbv zeta. destruct (Qltb_spec 0 v) as [_|C]; [|lra]. destruct (SF (20 * len / v)) as (d & E & S0 & D).
    { apply Qlt_shift_div_l; lra. }
    exists d. split; [exact E|]. split; [exact S0|]. rewrite D, <- V1. field. split; lra.
  - intros F H L. destruct (V H) as [V1 V2]. destruct (Qltb_spec 0 fps) as [C|_]; [lra|]. destruct (Qltb_spec len 0) as [_|C]; [|lra].
    set (v := if Qltb 0 sr then time - sr else time) in *. clearbody v. cbv zeta. destruct (Qltb_spec 0 v) as [_|C]; [|lra]. destruct (SF (20 * v / v)) as (d & E & S0 & D).
    { apply Qlt_shift_div_l; lra. }
    exists d. split; [exact E|]. split; [exact S0|]. rewrite D. field. lra.
  - intros F. destruct (Qltb_spec 0 fps) as [_|C]; [|lra]. now apply SF.
Qed.
Print Assumptions C124_delay.

Lemma apart_span d l : 0 < d -> apart d l -> forall T, (forall t, In t l -> t <= T) -> forall a, hd_error l = Some a -> inject_Z (Z.of_nat (length l)) * d <= T - a + d.
Proof.
  intros D. induction l as [|a l IH]; intros A T H a' E; [discriminate|]. injection E as <-. destruct l as [|b l].
  - cbn [length]. change (inject_Z (Z.of_nat 1)) with 1. specialize (H a (or_introl eq_refl)). lra.
  - destruct A as [A1 A2]. specialize (IH A2 T (fun t Ht => H t (or_intror Ht)) b eq_refl). change (length (a :: b :: l)) with (S (length (b :: l))).
    set (n := length (b :: l)) in *. rewrite Nat2Z.inj_succ, <- Z.add_1_r, inject_Z_plus. change (inject_Z 1) with 1. lra.
Qed.
Lemma steps_tail sr h d times t0 : 0 < d_delay d -> 0 <= h -> sr <= t0 -> steps_from h t0 times -> d_setup d = false -> t0 - d_last d < d_delay d ->
  last times t0 < d_last d + d_delay d + inject_Z (Z.of_nat (length (fst (record_run SIM sr times d)))) * (d_delay d + h).
Proof.
  intros D H. revert t0 d D. induction times as [|a ts IH]; intros t0 d D HS ST SU L.
  - cbn [record_run fst length last]. change (inject_Z (Z.of_nat 0)) with 0. lra.
  - destruct ST as (A1 & A2 & A3). assert (EL : last (a :: ts) t0 = last ts a) by (clear; revert a t0; induction ts as [|b ts IH]; intros a t0; [reflexivity|]; change (last (b :: ts) t0 = last (b :: ts) a); now rewrite !IH).
    rewrite EL. cbn [record_run]. unfold record_step, check. rewrite (proj2 (Qle_bool_iff sr a)) by lra. rewrite SU. cbn [negb andb is_sim].
    destruct (Qle_bool (d_delay d) (a - d_last d)) eqn:B; cbn [negb].
    + specialize (IH a (mkDob (d_delay d) a false) D ltac:(lra) A3 eq_refl). cbn [d_last d_delay] in IH. specialize (IH ltac:(lra)).
      destruct (record_run SIM sr ts (mkDob (d_delay d) a false)) as [l d2]. cbn [fst length] in *. rewrite Nat2Z.inj_succ, <- Z.add_1_r, inject_Z_plus. change (inject_Z 1) with 1.
      set (n := inject_Z (Z.of_nat (length l))) in *. clearbody n. lra.
    + assert (B' : a - d_last d < d_delay d). { apply Qnot_le_lt. intros C. apply Qle_bool_iff in C. congruence. }
      specialize (IH a d D ltac:(lra) A3 SU B'). destruct (record_run SIM sr ts d) as [l d2]. exact IH.
Qed.
Lemma steps_head sr h d times t0 : 0 < d_delay d <= 10 -> 0 <= h -> 0 <= t0 <= sr -> steps_from h t0 times -> d_setup d = false -> d_last d == -10 -> times <> [] -> sr <= last times t0 ->
  last times t0 < sr + inject_Z (Z.of_nat (length (fst (record_run SIM sr times d)))) * (d_delay d + h).
Proof.
  intros D H. revert t0. induction times as [|a ts IH]; intros t0 H0 ST SU L NE LS; [contradiction|].
  destruct ST as (A1 & A2 & A3). assert (EL : last (a :: ts) t0 = last ts a) by (clear; revert a t0; induction ts as [|b ts IH]; intros a t0; [reflexivity|]; change (last (b :: ts) t0 = last (b :: ts) a); now rewrite !IH).
  rewrite EL in *. cbn [record_run]. unfold record_step, check. destruct (Qle_bool sr a) eqn:B.
  - apply Qle_bool_iff in B. rewrite SU. cbn [negb andb is_sim]. rewrite (proj2 (Qle_bool_iff (d_delay d) (a - d_last d))) by lra. cbn [negb].
    pose proof (steps_tail sr h (mkDob (d_delay d) a false) ts a ltac:(cbn; lra) H B A3 eq_refl ltac:(cbn; lra)) as T. cbn [d_last d_delay] in T.
    destruct (record_run SIM sr ts (mkDob (d_delay d) a false)) as [l d2]. cbn [fst length] in *. rewrite Nat2Z.inj_succ, <- Z.add_1_r, inject_Z_plus. change (inject_Z 1) with 1.
    set (n := inject_Z (Z.of_nat (length l))) in *. clearbody n. lra.
  - assert (B' : a < sr). { apply Qnot_le_lt. intros C. apply Qle_bool_iff in C. congruence. }
    assert (NE' : ts <> []). { intros ->. cbn in LS. lra. }
    specialize (IH a ltac:(lra) A3 SU L NE' LS). destruct (record_run SIM sr ts d) as [l d2]. exact IH.
Qed.

(* The video has at most 20 frames per second of its length, plus one; and with steps of at most h, a recording that reaches the time t has more than
   (t - start)/(delay + h) frames, provided that the delay is at most ten. *)
Theorem C124_frames_partial : forall time sr len fps times h d, fps <= 0 -> 0 <= sr < time -> 0 < len -> 0 <= h ->
  steps_from h 0 times -> (forall t, In t times -> t <= time) -> video_object time sr len fps = Some d ->
  let n := inject_Z (Z.of_nat (length (fst (record SIM sr times d)))) in
  n <= 20 * len + 1 /\
  ((time - sr) / (20 * len) <= 10 -> times <> [] -> sr <= last times 0 -> last times 0 - sr < n * ((time - sr) / (20 * len) + h)).
Proof.
  intros time sr len fps times h d F HS HL Hh ST HT E n. destruct (proj1 (C124_delay time sr len fps) F HS HL) as (d0 & E0 & SU & D). rewrite E in E0. injection E0 as <-.
  assert (DP : 0 < (time - sr) / (20 * len)) by (apply Qlt_shift_div_l; lra). assert (DP' : 0 < d_delay d) by (rewrite D; exact DP). split.
  - destruct (C48_schedule SIM sr times d) as (A & B & _). cbv zeta in *. set (l := fst (record SIM sr times d)) in *. destruct l as [|a l0] eqn:EL.
    + unfold n. cbn [length]. change (inject_Z (Z.of_nat 0)) with 0. lra.
    + assert (SP := apart_span (d_delay d) l DP' ltac:(rewrite EL; exact B) time ltac:(rewrite EL; intros t Ht; apply HT, A; exact Ht) a ltac:(rewrite EL; reflexivity)). rewrite EL in SP. fold n in SP.
      destruct (A a (or_introl eq_refl)) as [_ A1]. rewrite D in SP. assert (SP' : n * ((time - sr) / (20 * len)) <= (time - sr) + (time - sr) / (20 * len)) by lra. clear SP.
      apply Qmult_le_r with ((time - sr) / (20 * len)); [exact DP|]. setoid_replace ((20 * len + 1) * ((time - sr) / (20 * len))) with ((time - sr) + (time - sr) / (20 * len)) by (field; lra). exact SP'.
  - intros D10 NE LS. assert (X := steps_head sr h (d_pre_integrate d) times 0). cbn [d_pre_integrate d_delay d_setup d_last] in X.
    rewrite D in X. specialize (X (conj DP D10) Hh (conj (Qle_refl 0) (proj1 HS)) ST SU (Qeq_refl _) NE LS). unfold n, record. unfold d_pre_integrate. cbv beta in X. fold n in X. revert X.
    fold (d_pre_integrate d). intros X. lra.
Qed.
Print Assumptions C124_frames_partial.

(* The delay of a short video of a long run can exceed ten: then nothing of the beginning is recorded (recordings are made from delay - 10 on). *)
Theorem C124_start_refuted : exists d, video_object 1000 0 1 (-1) = Some d /\ d_delay d == 50 /\
  fst (record SIM 0 (map (fun k => inject_Z (Z.of_nat k)) (seq 0 40)) d) = [] /\
  fst (record SIM 0 (map (fun k => inject_Z (Z.of_nat k)) (seq 0 100)) d) = [40; 90].
Proof. eexists. split; [reflexivity|]. split; [reflexivity|]. split; vm_compute; reflexivity. Qed.
Print Assumptions C124_start_refuted.
Example C124_case : exists d, video_object 10 2 (1#5) 0 = Some d /\ d_delay d == 2 /\
  steps_from (1#2) 0 (map (fun k => inject_Z (Z.of_nat k) / 2) (seq 0 21)) /\
  map Qred (fst (record SIM 2 (map (fun k => inject_Z (Z.of_nat k) / 2) (seq 0 21)) d)) = [2; 4; 6; 8; 10].
Proof. eexists. split; [reflexivity|]. split; [reflexivity|]. split; [cbn; repeat split; vm_compute; discriminate|vm_compute; reflexivity]. Qed.
Print Assumptions C124_case.
