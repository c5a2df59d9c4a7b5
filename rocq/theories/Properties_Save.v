(* C65: files that are saved read back. C66: recorded frames hold the requested quantities of the particles. C67: readers of a file find the
   quantities of a particle. *)
From Coq Require Import QArith ZArith Lia Ascii String List Bool Sorted.
From Verif Require Import Lib Model_Geometry Model_Save Spec_Save Proofs_Save Proofs_Save2.
Import ListNotations.
Local Open Scope list_scope.
Local Notation length := List.length.

(* ---------- C65. show, showb print numbers as texts of the characters 0-9 . - + e E; val, valb are what the reader makes of a text. *)
Theorem C65_round_trip_partial {V W : Type} (showb : Q -> list ascii) (show : V -> list ascii) (valb : list ascii -> Q) (val : list ascii -> W) (d : sdata) (frames : list (list V)) :
  (0 < d_dims d)%nat -> length (d_bounds d) = d_dims d -> d_vn d <> [] -> d_mn d ++ d_sn d <> [] ->
  (forall n, In n (d_vn d ++ d_mn d ++ d_sn d ++ d_in d) -> plain n) -> (forall q, number_text (showb q)) -> (forall v, number_text (show v)) ->
  exists l, load valb val (write showb show d frames) ldata0 = Some l /\
  l_data l = map (map (fun v => val (without_plus (show v)))) frames /\
  l_bounds l = map (fun m => (valb (without_plus (showb (fst m))), valb (without_plus (showb (snd m))))) (d_bounds d) /\
  l_width l = d_width d /\ l_dims l = d_dims d /\ l_nt l = d_nt d /\
  l_vn l = d_vn d /\ l_sn l = map (fun n => (n ++ "-M")%string) (d_mn d) ++ d_sn d /\ l_in l = d_in d ++ ["Proc"%string].
Proof.
  intros H1 H2 H3 H4 H5 H6 H7. eexists. split; [apply load_write; auto; destruct (d_bounds d); cbn in H2; [lia|discriminate]|]. repeat split; reflexivity.
Qed.
Print Assumptions C65_round_trip_partial.

(* A printer and reader for the examples: whole numbers in decimals. *)
Definition showz (q : Q) : list ascii := let z := Qnum q in (if z <? 0 then ["-"%char] else [])%Z ++ show_nat (Z.abs_nat z).
Definition valz (s : list ascii) : Q :=
  match s with "-"%char :: t => match read_int t with Some n => - inject_Z (Z.of_nat n) | None => 0 end | _ => match read_int s with Some n => inject_Z (Z.of_nat n) | None => 0 end end.
Lemma showz_text q : number_text (showz q).
Proof.
  unfold showz. destruct (show_nat_text (Z.abs_nat (Qnum q))) as [A (c & Hc & Hn)]. split.
  - intros x Hx. apply in_app_or in Hx as [Hx|Hx]; [|now apply A]. destruct (Qnum q <? 0)%Z; [destruct Hx as [<- |[]]; cbn; tauto|destruct Hx].
  - exists c. split; [apply in_or_app; now right|exact Hn].
Qed.
Definition file_d : sdata := mkSD ["X"]%string ["V"]%string ["Sg"]%string [] [] [] [] [] [(-1, 10); (0, 20)] 5 2 3.
Example C65_round_trip_case :
  (0 < d_dims file_d)%nat /\ length (d_bounds file_d) = d_dims file_d /\ (forall n, In n (d_vn file_d ++ d_mn file_d ++ d_sn file_d ++ d_in file_d) -> plain n) /\
  (forall q, number_text (showz q)) /\
  load valz valz (write showz showz file_d [[3; -4; 1; 1; 0]; []; [12; 5; 0; 2; 0; 7; 8; 9; 2; 1]]) ldata0 =
    Some (mkLD [[3; -4; 1; 1; 0]; []; [12; 5; 0; 2; 0; 7; 8; 9; 2; 1]] [(-1, 10); (0, 20)] 5 2 3 ["X"]%string ["V-M"; "Sg"]%string ["Proc"]%string).
Proof.
  split; [cbn; lia|]. split; [reflexivity|]. split; [|split; [apply showz_text|vm_compute; reflexivity]].
  intros n Hn. cbn in Hn. repeat (destruct Hn as [<- |Hn]; [intros c Hc; cbn in Hc; repeat (destruct Hc as [<- |Hc]; [repeat split; discriminate|]); destruct Hc|]). destruct Hn.
Qed.

(* Without vector data (or without scalar data and magnitudes) the header cannot be read back: the list of names is empty and the line "0," ends
   with a line break that is taken for the next entry; an uninitialised number is then used as a count. *)
Theorem C65_no_vectors_refuted :
  let d := mkSD [] [] ["Sg"]%string [] [] [] [] [] [(0, 10)] 2 1 1 in
  load valz valz (write showz showz d [[3; 0]]) ldata0 = None /\
  let d' := mkSD ["X"]%string [] [] [] [] [] [] [] [(0, 10)] 2 1 1 in
  load valz valz (write showz showz d' [[3; 0]]) ldata0 = None.
Proof. split; vm_compute; reflexivity. Qed.
Print Assumptions C65_no_vectors_refuted.
(* A value that is printed without digits (NaN) is read as an uninitialised number. *)
Theorem C65_nan_refuted : let show o := match o with Some q => showz q | None => list_ascii_of_string "nan" end in
  load valz (fun s => Some (valz s)) (write showz show file_d [[Some 3; None; Some 1; Some 1; Some 0]]) ldata0 = None /\
  exists l, load valz (fun s => Some (valz s)) (write showz show file_d [[Some 3; Some 0; Some 1; Some 1; Some 0]]) ldata0 = Some l.
Proof. split; [vm_compute; reflexivity|]. eexists. vm_compute. reflexivity. Qed.
Print Assumptions C65_nan_refuted.
(* Loading a second file with the same object adds its frames and names to those of the first, while width and bounds are those of the second. *)
Theorem C65_load_twice_refuted : exists l1 l2,
  load valz valz (write showz showz file_d [[3; -4; 1; 1; 0]]) ldata0 = Some l1 /\
  load valz valz (write showz showz (mkSD ["X"]%string [] ["Sg"]%string [] [] [] [] [] [(0, 10)] 3 1 1) [[7; 1; 0]]) l1 = Some l2 /\
  l_data l2 = [[3; -4; 1; 1; 0]; [7; 1; 0]] /\ l_width l2 = 3%nat /\ l_vn l2 = ["X"; "X"]%string /\ l_in l2 = ["Proc"; "Proc"]%string /\ getEntries l2 0 = Some 1%nat.
Proof. eexists. eexists. split; [vm_compute; reflexivity|]. split; [vm_compute; reflexivity|]. repeat split. Qed.
Print Assumptions C65_load_twice_refuted.

(* ---------- C66. The first run of the recorder: entries v, m, s, i requested, recorded region gather. *)
Theorem C66_frames_partial (getV getS getI : string -> Z) (simb gather : bounds) (dims nt : nat) (v m s i : list string) (mag : list Q -> Q) (rank : Z)
    (sel : nat -> bool) (number : nat) (os : list slot) :
  (0 < nt)%nat ->
  (forall o, In o os -> length (o_x o) = length gather /\ forall n, (-1 < getV n)%Z -> length (nth (Z.to_nat (getV n)) (o_vec o) []) = dims) ->
  (number = 0%nat -> forall o, In o os -> (o_type o < 0)%Z) ->
  let d := pos_pre getV getS getI simb gather dims nt (v, m, s, i) sdata0 in
  let v' := filter (fun n => (-1 <? getV n)%Z) v in let m' := filter (fun n => (-1 <? getV n)%Z) m in
  let s' := filter (fun n => (-1 <? getS n)%Z) s in let i' := filter (fun n => (-1 <? getI n)%Z) i in
  d_vn d = v' /\ d_mn d = m' /\ d_sn d = s' /\ d_in d = i' /\ d_dims d = dims /\ d_nt d = nt /\ d_bounds d = gather /\
  d_width d = (length v' * dims + length m' + length s' + length i' + 1)%nat /\
  exists fr ks, store mag rank sel d number os = Some fr /\ StronglySorted lt ks /\
  (forall n, In n ks <-> exists o, nth_error os n = Some o /\ (0 <= o_type o)%Z /\ Forall2 (fun b x => fst b <= x /\ x < snd b) gather (o_x o) /\ sel n = true) /\
  length fr = (length ks * d_width d)%nat /\
  forall k n o, nth_error ks k = Some n -> nth_error os n = Some o ->
    firstn (d_width d) (skipn (k * d_width d) fr) =
      flat_map (fun a => nth (Z.to_nat (getV a)) (o_vec o) []) v' ++ map (fun a => mag (nth (Z.to_nat (getV a)) (o_vec o) [])) m'
      ++ map (fun a => nth (Z.to_nat (getS a)) (o_sc o) 0) s' ++ map (fun a => inject_Z (nth (Z.to_nat (getI a)) (o_int o) 0%Z)) i' ++ [inject_Z rank].
Proof.
  intros Hn Hf Hz. cbv zeta. pose proof (sd_eq getV getS getI simb gather dims nt v m s i Hn) as E. unfold sd in E.
  assert (Hfull : forall o, In o os -> full getV dims o) by (intros o Ho; exact (proj2 (Hf o Ho))).
  pose proof (store_spec getV getS getI simb gather dims nt v m s i mag rank sel number os Hn Hfull Hz) as St. unfold sd in St. rewrite St. rewrite E. cbn [d_vn d_mn d_sn d_in d_dims d_nt d_bounds d_width].
  do 8 (split; [reflexivity|]). eexists. exists (pick sel gather 0 os). split; [reflexivity|]. split; [apply pick_sorted|]. split; [|].
  - intros n. rewrite pick_in. split.
    + intros (o & _ & Eo & P). rewrite Nat.sub_0_r in Eo. exists o. split; [exact Eo|]. unfold picked in P. apply negb_true_iff in P. apply orb_false_iff in P as [P Ps]. apply orb_false_iff in P as [Pt Pc].
      apply Z.ltb_ge in Pt. apply negb_false_iff in Pc, Ps. split; [exact Pt|]. split; [|exact Ps]. apply contains_spec; [|exact Pc]. apply (Hf o). eapply nth_error_In; eauto.
    + intros (o & Eo & Pt & Pc & Ps). exists o. split; [lia|]. rewrite Nat.sub_0_r. split; [exact Eo|]. unfold picked. apply contains_spec in Pc; [|apply (Hf o); eapply nth_error_In; eauto].
      rewrite Pc, Ps. replace (o_type o <? 0)%Z with false by (symmetry; now apply Z.ltb_ge). reflexivity.
  - assert (L : forall k, In k (pick sel gather 0 os) -> length (match nth_error os k with Some o => named_row getV getS getI mag rank (kV getV v) (kM getV m) (kS getS s) (kI getI i) o | None => [] end) =
       (length (kV getV v) * dims + length (kM getV m) + length (kS getS s) + length (kI getI i) + 1)%nat).
    { intros k Hk. apply pick_in in Hk as (o & _ & Eo & _). rewrite Nat.sub_0_r in Eo. rewrite Eo. apply named_len, Hfull. eapply nth_error_In; eauto. }
    split; [apply flat_const, L|]. intros k n o Ek Eo. rewrite (flat_block _ _ _ L k n Ek), Eo. reflexivity.
Qed.
Print Assumptions C66_frames_partial.

Definition get_of (l : list string) (n : string) : Z := find_name 0 n l.
Definition slots1 : list slot :=
  [mkSlot 0 [1; 2] [[1; 2]; [3; 4]] [1#2] [0%Z]; mkSlot (-1) [0; 0] [[0; 0]; [0; 0]] [0] [0%Z]; mkSlot 1 [9; 9] [[9; 9]; [0; 1]] [3#4] [1%Z]; mkSlot 1 [5; 4] [[5; 4]; [0; 2]] [1#4] [1%Z]].
Definition gV := get_of ["X"; "V"]%string. Definition gS := get_of ["Sg"]%string. Definition gI := get_of ["Type"]%string.
Definition d1 : sdata := pos_pre gV gS gI [(0, 10); (0, 10)] [(0, 8); (0, 8)] 2 2 (["X"], ["V"], ["Sg"; "StripeX"], ["Type"])%string sdata0.
Example C66_frames_case : 
  (forall o, In o slots1 -> length (o_x o) = 2%nat /\ forall n, (-1 < gV n)%Z -> length (nth (Z.to_nat (gV n)) (o_vec o) []) = 2%nat) /\
  store (fun v => nth 0 v 0 * nth 0 v 0 + nth 1 v 0 * nth 1 v 0) 0 (fun _ => true) d1 3 slots1 = Some [1; 2; 3*3+4*4; 1#2; 0; 0; 5; 4; 0*0+2*2; 1#4; 1; 0].
Proof.
  split.
  - assert (G : forall n, (-1 < gV n)%Z -> gV n = 0%Z \/ gV n = 1%Z).
    { intros n. unfold gV, get_of. cbn [find_name]. destruct (String.eqb n "X"); [now left|]. destruct (String.eqb n "V"); [now right|]. cbn. lia. }
    intros o Ho. repeat (destruct Ho as [<- |Ho]; [split; [reflexivity|intros n Hn; destruct (G n Hn) as [-> | ->]; reflexivity]|]). destruct Ho.
  - vm_compute. reflexivity.
Qed.

(* A second run: the positions found are added to those of the first run, while the width is computed again. Rows are then longer than their width:
   the last row is written outside of the vector. *)
Theorem C66_second_run_refuted :
  store (fun v => nth 0 v 0) 0 (fun _ => true) (pos_pre gV gS gI [(0, 10); (0, 10)] [(0, 8); (0, 8)] 2 2 (["X"], ["V"], ["Sg"], ["Type"])%string d1) 3 slots1 = None.
Proof. vm_compute. reflexivity. Qed.
Print Assumptions C66_second_run_refuted.
(* A boundary that is set before initialize() is overwritten. *)
Theorem C66_boundary_refuted getV getS getI b b' dims nt d : d_bounds (initialize getV getS getI b dims nt (set_boundary b' d)) = b.
Proof. destruct nt; reflexivity. Qed.
Print Assumptions C66_boundary_refuted.
(* clear_all_data_entries() keeps the magnitudes. *)
Theorem C66_clear_refuted : clear_entries (["X"], ["V"], ["Sg"], ["Type"])%string = ([], ["V"], [], [])%string.
Proof. reflexivity. Qed.
Print Assumptions C66_clear_refuted.

(* ---------- C67. A frame that is recorded, saved and loaded: the reader looks up names in the loaded header. pdata: the data of the k-th recorded
   particle, in slot n of the store. Condition: no requested scalar is called like a magnitude (x-M). *)
Theorem C67_places_partial {W} (getV getS getI : string -> Z) (simb gather : bounds) (dims nt : nat) (v m s i : list string) (mag : list Q -> Q) (rank : Z)
    (sel : nat -> bool) (number : nat) (os : list slot) (showb show : Q -> list ascii) (valb : list ascii -> Q) (val : list ascii -> W) (w0 : W) before after fr l :
  (0 < nt)%nat -> (0 < dims)%nat -> length gather = dims ->
  (forall o, In o os -> length (o_x o) = length gather /\ forall n, (-1 < getV n)%Z -> length (nth (Z.to_nat (getV n)) (o_vec o) []) = dims) ->
  (number = 0%nat -> forall o, In o os -> (o_type o < 0)%Z) ->
  (forall n, In n (v ++ m ++ s ++ i) -> plain n) -> (forall q, number_text (showb q)) -> (forall q, number_text (show q)) ->
  (forall a b, In a m -> In b s -> b <> (a ++ "-M")%string) ->
  (exists a, In a v /\ (-1 < getV a)%Z) -> (exists a, (In a m /\ (-1 < getV a)%Z) \/ (In a s /\ (-1 < getS a)%Z)) ->
  let d := pos_pre getV getS getI simb gather dims nt (v, m, s, i) sdata0 in
  store mag rank sel d number os = Some fr -> load valb val (write showb show d (before ++ fr :: after)) ldata0 = Some l ->
  let rd q := val (without_plus (show q)) in
  exists ks, StronglySorted lt ks /\
  (forall n, In n ks <-> exists o, nth_error os n = Some o /\ (0 <= o_type o)%Z /\ Forall2 (fun b x => fst b <= x /\ x < snd b) gather (o_x o) /\ sel n = true) /\
  getEntries l (length before) = Some (length ks) /\
  forall k n o, nth_error ks k = Some n -> nth_error os n = Some o -> 
  let pdata := skipn (k * l_width l) (nth (length before) (l_data l) []) in
  forall method name, let p := findPlaces (l_vn l) (l_sn l) (l_in l) (l_dims l) method name in
  (In "X"%string v -> (-1 < getV "X"%string)%Z -> (0 <= pos_place p)%Z /\ forall c, (c < dims)%nat -> nth (Z.to_nat (pos_place p) + c) pdata w0 = rd (nth c (nth (Z.to_nat (getV "X"%string)) (o_vec o) []) 0)) /\
  (In "Sg"%string s -> (-1 < getS "Sg"%string)%Z -> (0 <= sg_place p)%Z /\ nth (Z.to_nat (sg_place p)) pdata w0 = rd (nth (Z.to_nat (getS "Sg"%string)) (o_sc o) 0)) /\
  (method = 1%nat -> In name v -> (-1 < getV name)%Z ->
     (0 <= v_select p)%Z /\ forall c, (c < dims)%nat -> nth (Z.to_nat (v_select p) + c) pdata w0 = rd (nth c (nth (Z.to_nat (getV name)) (o_vec o) []) 0)) /\
  (method = 2%nat -> In name s -> (-1 < getS name)%Z -> (0 <= s_select p)%Z /\ nth (Z.to_nat (s_select p)) pdata w0 = rd (nth (Z.to_nat (getS name)) (o_sc o) 0)) /\
  (forall a, method = 2%nat -> name = (a ++ "-M")%string -> In a m -> (-1 < getV a)%Z ->
     (0 <= s_select p)%Z /\ nth (Z.to_nat (s_select p)) pdata w0 = rd (mag (nth (Z.to_nat (getV a)) (o_vec o) []))) /\
  (method = 3%nat -> In name i -> (-1 < getI name)%Z -> (0 <= i_select p)%Z /\ nth (Z.to_nat (i_select p)) pdata w0 = rd (inject_Z (nth (Z.to_nat (getI name)) (o_int o) 0%Z))) /\
  (method = 3%nat -> name = "Proc"%string -> ~ In "Proc"%string i -> (0 <= i_select p)%Z /\ nth (Z.to_nat (i_select p)) pdata w0 = rd (inject_Z rank)).
Proof.
  intros Hn Hd Hg Hf Hz Hpl Hsb Hs Hmag (v1 & Hv1 & Hv1') Hms d Hst Hld rd.
  destruct (C66_frames_partial getV getS getI simb gather dims nt v m s i mag rank sel number os Hn Hf Hz) as (Evn & Emn & Esn & Ein & Edm & Ent & Ebd & Ewd & fr' & ks & Hst' & Hso & Hks & Hlen & Hrow).
  fold d in Evn, Emn, Esn, Ein, Edm, Ent, Ebd, Ewd, Hst', Hlen, Hrow. clearbody d. rewrite Hst in Hst'. injection Hst' as <-. exists ks. split; [exact Hso|]. split; [exact Hks|].
  pose proof (load_write (V := Q) (W := W) showb show valb val d (before ++ fr :: after) ldata0) as Hld2. rewrite Hld2 in Hld; clear Hld2; try assumption.
  2: { now rewrite Ebd, Edm. }
  2: { rewrite Ebd. destruct gather; cbn in Hg; [lia|discriminate]. }
  2: { rewrite Evn. intros E. assert (X : In v1 (filter (fun n => (-1 <? getV n)%Z) v)) by (apply filter_In; split; [exact Hv1|now apply Z.ltb_lt]). rewrite E in X. destruct X. }
  2: { rewrite Emn, Esn. intros E. destruct Hms as (a & [[A B]|[A B]]).
      + assert (X : In a (filter (fun n => (-1 <? getV n)%Z) m)) by (apply filter_In; split; [exact A|now apply Z.ltb_lt]). apply app_eq_nil in E as [E _]. rewrite E in X. destruct X.
      + assert (X : In a (filter (fun n => (-1 <? getS n)%Z) s)) by (apply filter_In; split; [exact A|now apply Z.ltb_lt]). apply app_eq_nil in E as [_ E]. rewrite E in X. destruct X. }
  2: { rewrite Evn, Emn, Esn, Ein. intros n Hin. apply Hpl. rewrite !in_app_iff in *. rewrite !filter_In in Hin. tauto. }
  injection Hld as <-. unfold getEntries. cbn [l_data l_width l_vn l_sn l_in l_dims ldata0 app].
  rewrite map_app. cbn [map]. fold rd.
  assert (Lb : length (map (map rd) before) = length before) by apply map_length.
  change (fun v0 : Q => val (without_plus (show v0))) with rd.
  rewrite nth_error_app2 by lia. rewrite app_nth2 by lia. rewrite Lb, Nat.sub_diag. cbn [nth_error nth]. split.
  { destruct (d_width d) as [|w] eqn:Ew; [rewrite Ewd in Ew; lia|]. f_equal. rewrite map_length, Hlen. exact (Nat.div_mul (length ks) (S w) (Nat.neq_succ_0 w)). }
  intros k n o Ek Eo. cbv zeta. rewrite Evn, Emn, Esn, Ein, Edm.
  set (v' := filter (fun n => (-1 <? getV n)%Z) v) in *. set (m' := filter (fun n => (-1 <? getV n)%Z) m) in *. set (s' := filter (fun n => (-1 <? getS n)%Z) s) in *. set (i' := filter (fun n => (-1 <? getI n)%Z) i) in *.
  assert (Ho : In o os) by (eapply nth_error_In; eauto).
  set (A1 := flat_map (fun a => nth (Z.to_nat (getV a)) (o_vec o) []) v') in *. set (A2 := map (fun a => mag (nth (Z.to_nat (getV a)) (o_vec o) [])) m') in *.
  set (A3 := map (fun a => nth (Z.to_nat (getS a)) (o_sc o) 0) s') in *. set (A4 := map (fun a => inject_Z (nth (Z.to_nat (getI a)) (o_int o) 0%Z)) i') in *.
  assert (Lv : forall a, In a v' -> length (nth (Z.to_nat (getV a)) (o_vec o) []) = dims) by (intros a Ha; apply filter_In in Ha as [_ Ha]; apply Z.ltb_lt in Ha; now apply (Hf o Ho)).
  assert (L1 : length A1 = (length v' * dims)%nat) by (apply flat_const, Lv).
  assert (L2 : length A2 = length m') by apply map_length. assert (L3 : length A3 = length s') by apply map_length. assert (L4 : length A4 = length i') by apply map_length.
  assert (Get : forall q x, nth_error (A1 ++ A2 ++ A3 ++ A4 ++ [inject_Z rank]) q = Some x -> nth q (skipn (k * d_width d) (map rd fr)) w0 = rd x).
  { intros q x Hq. specialize (Hrow k n o Ek Eo). fold A1 A2 A3 A4 in Hrow. rewrite <- Hrow in Hq. assert (Hlt : (q < d_width d)%nat).
    { assert (X : nth_error (firstn (d_width d) (skipn (k * d_width d) fr)) q <> None) by congruence. apply nth_error_Some in X. rewrite firstn_length in X. lia. }
    assert (Sk : forall (f : Q -> W) k l, skipn k (map f l) = map f (skipn k l)) by (clear; induction k; intros [|a l]; cbn; auto). rewrite Sk.
    assert (Hq2 : nth_error (skipn (k * d_width d) fr) q = Some x).
    { rewrite <- (firstn_skipn (d_width d) (skipn (k * d_width d) fr)). rewrite nth_error_app1; [exact Hq|]. apply nth_error_Some. congruence. }
    apply nth_error_nth. now apply map_nth_error. }
  assert (kn : forall (g : string -> Z) l a, In a l -> (-1 < g a)%Z -> In a (filter (fun n => (-1 <? g n)%Z) l)) by (intros g l a A B; apply filter_In; split; [exact A|now apply Z.ltb_lt]).
  assert (GV : forall name, In name v' -> exists j, find_name 0 name v' = Z.of_nat j /\ forall c, (c < dims)%nat -> nth_error (A1 ++ A2 ++ A3 ++ A4 ++ [inject_Z rank]) (j * dims + c) = Some (nth c (nth (Z.to_nat (getV name)) (o_vec o) []) 0)).
  { intros name Hin. destruct (find_name_spec name v' 0 Hin) as (j & F & G). exists j. split; [rewrite F; lia|]. intros c Hc.
    assert (Hj : (j < length v')%nat) by (apply nth_error_Some; congruence). assert (Hb : (j * dims + c < length A1)%nat) by (rewrite L1; nia). rewrite nth_error_app1 by exact Hb.
    unfold A1. rewrite (nth_error_nth' _ 0) by exact Hb. f_equal. now apply (flat_nth (fun a => nth (Z.to_nat (getV a)) (o_vec o) []) dims v' 0 Lv). }
  assert (GS : forall name, In name s' -> ~ In name (map (fun n => (n ++ "-M")%string) m') -> exists j, find_name 0 name (map (fun n => (n ++ "-M")%string) m' ++ s') = Z.of_nat j /\
     nth_error (A1 ++ A2 ++ A3 ++ A4 ++ [inject_Z rank]) (length v' * dims + j) = Some (nth (Z.to_nat (getS name)) (o_sc o) 0)).
  { intros name Hin Hno. destruct (find_name_spec name (map (fun n => (n ++ "-M")%string) m' ++ s') 0) as (j & F & G); [apply in_or_app; now right|]. exists j. split; [rewrite F; lia|].
    rewrite nth_error_app2 by lia. rewrite L1. replace (length v' * dims + j - length v' * dims)%nat with j by lia.
    destruct (Nat.lt_ge_cases j (length m')) as [Hj|Hj].
    - rewrite nth_error_app1 in G by (rewrite map_length; exact Hj). apply nth_error_In in G. contradiction.
    - rewrite nth_error_app2 in G by (rewrite map_length; exact Hj). rewrite map_length in G. rewrite nth_error_app2 by lia. rewrite L2. 
      assert (j - length m' < length s')%nat by (apply nth_error_Some; congruence). rewrite nth_error_app1 by lia. unfold A3. now apply (map_nth_error (fun a => nth (Z.to_nat (getS a)) (o_sc o) 0)). }
  assert (NM : forall name, In name s -> ~ In name (map (fun n => (n ++ "-M")%string) m')).
  { intros name Hin X. apply in_map_iff in X as (a & E & Ha). apply filter_In in Ha as [Ha _]. now apply (Hmag a name Ha Hin). }
  unfold findPlaces. cbn [pos_place sg_place v_select s_select i_select].
  split; [|split; [|split; [|split; [|split; [|split]]]]].
  - intros A B. destruct (GV _ (kn getV v _ A B)) as (j & -> & G). split; [lia|]. intros c Hc. apply Get. rewrite <- G by exact Hc. f_equal. lia.
  - intros A B. destruct (GS _ (kn getS s _ A B) (NM _ A)) as (j & -> & G). split; [lia|]. apply Get. rewrite <- G. f_equal. lia.
  - intros -> A B. cbn [Nat.eqb]. destruct (GV _ (kn getV v _ A B)) as (j & -> & G). split; [lia|]. intros c Hc. apply Get. rewrite <- G by exact Hc. f_equal. lia.
  - intros -> A B. cbn [Nat.eqb]. destruct (GS _ (kn getS s _ A B) (NM _ A)) as (j & -> & G). split; [lia|]. apply Get. rewrite <- G. f_equal. lia.
  - intros a -> -> A B. cbn [Nat.eqb]. destruct (find_name_spec (a ++ "-M") (map (fun n => (n ++ "-M")%string) m' ++ s') 0) as (j & F & G);
      [apply in_or_app; left; apply in_map_iff; exists a; split; [reflexivity|now apply kn]|]. rewrite F. split; [lia|]. apply Get.
    replace (Z.to_nat (0 + Z.of_nat j + Z.of_nat (length v' * dims))) with (length v' * dims + j)%nat by lia.
    rewrite nth_error_app2 by lia. rewrite L1. replace (length v' * dims + j - length v' * dims)%nat with j by lia. destruct (Nat.lt_ge_cases j (length m')) as [Hj|Hj].
    + rewrite nth_error_app1 in G by (rewrite map_length; exact Hj). rewrite nth_error_app1 by lia. destruct (nth_error m' j) as [a'|] eqn:Ej; [|apply nth_error_None in Ej; lia].
      rewrite (map_nth_error _ _ _ Ej) in G. injection G as G. assert (a' = a).
      { assert (Inj : forall x y z, (x ++ z)%string = (y ++ z)%string -> x = y).
        { clear. intros x y z H. assert (Q : list_ascii_of_string x ++ list_ascii_of_string z = list_ascii_of_string y ++ list_ascii_of_string z).
          { assert (T : forall u w, list_ascii_of_string (u ++ w) = list_ascii_of_string u ++ list_ascii_of_string w) by (induction u; intros w; cbn; congruence). now rewrite <- !T, H. }
          apply app_inv_tail in Q. now rewrite <- (string_of_list_ascii_of_string x), Q, string_of_list_ascii_of_string. }
        now apply (Inj _ _ "-M"%string). }
      subst a'. unfold A2. now apply (map_nth_error (fun a => mag (nth (Z.to_nat (getV a)) (o_vec o) []))).
    + exfalso. rewrite nth_error_app2 in G by (rewrite map_length; exact Hj). apply nth_error_In in G. apply filter_In in G as [G _]. now apply (Hmag a _ A G).
  - intros -> A B. cbn [Nat.eqb]. destruct (find_name_spec name (i' ++ ["Proc"%string]) 0) as (j & F & G); [apply in_or_app; left; now apply kn|]. rewrite F. split; [lia|]. apply Get.
    rewrite app_length, map_length. replace (Z.to_nat (0 + Z.of_nat j + (Z.of_nat (length v' * dims) + Z.of_nat (length m' + length s')))) with (length v' * dims + (length m' + (length s' + j)))%nat by lia.
    do 3 (rewrite nth_error_app2 by lia; rewrite ?L1, ?L2, ?L3; match goal with |- nth_error _ (?a + ?b - ?a) = _ => replace (a + b - a)%nat with b by lia end).
    destruct (Nat.lt_ge_cases j (length i')) as [Hj|Hj].
    + rewrite nth_error_app1 in G by exact Hj. rewrite nth_error_app1 by lia. unfold A4. now apply (map_nth_error (fun a => inject_Z (nth (Z.to_nat (getI a)) (o_int o) 0%Z))).
    + exfalso. assert (Hin : In name i') by now apply kn. destruct (find_name_spec name i' 0 Hin) as (j' & F' & G'). 
      assert (X : forall l a, In name l -> find_name a name (l ++ ["Proc"%string]) = find_name a name l).
      { clear. induction l as [|b l IH]; intros a H; [destruct H|]. cbn [app find_name]. destruct (String.eqb_spec name b); [reflexivity|]. destruct H; [congruence|]. now apply IH. }
      rewrite X in F by exact Hin. assert (j = j') by lia. subst j'. assert (j < length i')%nat by (apply nth_error_Some; congruence). lia.
  - intros -> -> A. cbn [Nat.eqb]. destruct (find_name_spec "Proc" (i' ++ ["Proc"%string]) 0) as (j & F & G); [apply in_or_app; right; now left|]. rewrite F. split; [lia|]. apply Get.
    rewrite app_length, map_length. replace (Z.to_nat (0 + Z.of_nat j + (Z.of_nat (length v' * dims) + Z.of_nat (length m' + length s')))) with (length v' * dims + (length m' + (length s' + j)))%nat by lia.
    do 3 (rewrite nth_error_app2 by lia; rewrite ?L1, ?L2, ?L3; match goal with |- nth_error _ (?a + ?b - ?a) = _ => replace (a + b - a)%nat with b by lia end).
    destruct (Nat.lt_ge_cases j (length i')) as [Hj|Hj].
    + exfalso. rewrite nth_error_app1 in G by exact Hj. apply nth_error_In in G. apply filter_In in G as [G _]. contradiction.
    + rewrite nth_error_app2 in G by exact Hj. rewrite nth_error_app2 by lia. rewrite L4. destruct (j - length i')%nat as [|q]; [reflexivity|destruct q; discriminate].
Qed.
Print Assumptions C67_places_partial.

Example C67_places_case : exists fr l, store (fun v => nth 0 v 0 * nth 0 v 0 + nth 1 v 0 * nth 1 v 0) 0 (fun _ => true) d1 3 slots1 = Some fr /\
  load valz valz (write showz showz d1 ([] ++ fr :: [fr])) ldata0 = Some l /\ getEntries l 0 = Some 2%nat /\
  let p := findPlaces (l_vn l) (l_sn l) (l_in l) (l_dims l) 2 "V-M" in
  pos_place p = 0%Z /\ sg_place p = 3%Z /\ s_select p = 2%Z /\ do_checks (l_width l) p = true /\ nth (1 * 6 + 2) (nth 0 (l_data l) []) 0 = 4.
Proof. eexists. eexists. split; [vm_compute; reflexivity|]. split; [vm_compute; reflexivity|]. vm_compute. repeat split. Qed.
(* Without recorded radii the check of the reader passes, and the last component of the vector data (here the position) is taken for the radius. *)
Theorem C67_no_radius_refuted : let d := pos_pre gV gS gI [(0, 10); (0, 10)] [(0, 8); (0, 8)] 2 2 (["X"], ["V"], [], [])%string sdata0 in
  exists fr l, store (fun v => nth 0 v 0) 0 (fun _ => true) d 3 slots1 = Some fr /\ load valz valz (write showz showz d [fr]) ldata0 = Some l /\
  let p := findPlaces (l_vn l) (l_sn l) (l_in l) (l_dims l) 0 "" in do_checks (l_width l) p = true /\ sg_place p = 1%Z /\ nth 1 (nth 0 (l_data l) []) 0 = 2.
Proof. cbv zeta. eexists. eexists. split; [vm_compute; reflexivity|]. split; [vm_compute; reflexivity|]. vm_compute. repeat split. Qed.
Print Assumptions C67_no_radius_refuted.
