(* Migration and ghost buffers, and the registration of data entries: src/base/simdata.{cpp,tpp} (paths under
   /repo/GFlowSim/src). The simplifications of Model_Store apply. *)
From Coq Require Import String.
From Verif Require Import Lib Model_Geometry Model_Store.
Local Open Scope string_scope.
Local Open Scope list_scope.
Local Open Scope Z_scope.

(* A buffer entry: a real, or an int stored bit by bit in a real by byte_cast (utility/utility.hpp 130-135). An int
   read as a real or the reverse is taken as NaN / -1 (it only happens when the two sides disagree on the layout). *)
Inductive word := WR (q : num) | WI (z : Z).
Definition as_real (w : word) : num := match w with WR q => q | WI _ => None end.
Definition as_int (w : word) : Z := match w with WI z => z | WR _ => -1 end.

(* The data entries in the order of their addresses: VectorData(i,id), ScalarData(i,id), IntegerData(i,id). *)
Definition vecs (p : part) : list (list num) := p_x p :: p_v p :: p_f p :: p_evecs p.
Definition scals (p : part) : list num := p_sg p :: p_im p :: p_escals p.
Definition ints (p : part) : list Z := p_type p :: p_gid p :: p_eints p.
Definition nvectors (s : store) : nat := 3 + st_nev s.
Definition nscalars (s : store) : nat := 2 + st_nes s.
Definition nintegers (s : store) : nat := 2 + st_nei s.

(* simdata.cpp 38 and 69 *)
Definition data_width (s : store) : nat := nvectors s * st_dims s + nscalars s + nintegers s.

(* std::vector writes / reads; None: outside the vector. *)
Definition write_at (pos : nat) (ws buf : list word) : option (list word) :=
  if (pos + length ws <=? length buf)%nat then Some (firstn pos buf ++ ws ++ skipn (pos + length ws) buf) else None.
Definition read_at (pos n : nat) (buf : list word) : option (list word) :=
  if (pos + n <=? length buf)%nat then Some (firstn n (skipn pos buf)) else None.

(* simdata.cpp 421-423 *)
Fixpoint pack_vecs (base dims i : nat) (vs : list (list num)) (buf : list word) : option (list word) :=
  match vs with
  | [] => Some buf
  | v :: vs' => match write_at (base + i * dims) (map WR v) buf with
                | Some b => pack_vecs base dims (S i) vs' b | None => None end
  end.
(* simdata.cpp 425-426 and 428-429 *)
Fixpoint pack_words (base i : nat) (ws : list word) (buf : list word) : option (list word) :=
  match ws with
  | [] => Some buf
  | w :: ws' => match write_at (base + i) [w] buf with
                | Some b => pack_words base (S i) ws' b | None => None end
  end.
(* the body of the loop, simdata.cpp 419-429 *)
Definition pack_one (dims dw j : nat) (p : part) (buf : list word) : option (list word) :=
  let nv := List.length (vecs p) in let ns := List.length (scals p) in
  match pack_vecs (dw * j) dims 0 (vecs p) buf with
  | None => None
  | Some b1 => match pack_words (dw * j + nv * dims) 0 (map WR (scals p)) b1 with
    | None => None
    | Some b2 => pack_words (dw * j + nv * dims + ns) 0 (map WI (ints p)) b2
    end
  end.
(* vector::resize to at least n *)
Definition enlarge (n : nat) (buf : list word) : list word :=
  buf ++ repeat (WR (Some 0%Q)) (n - length buf).

Fixpoint pack_loop (dw j : nat) (ids : list nat) (remove : bool) (buf : list word) (s : store)
  : option (list word * store) :=
  match ids with
  | [] => Some (buf, s)
  | id :: ids' =>
      match nth_error (st_mem s) id with
      | None => None
      | Some p => match pack_one (st_dims s) dw j p buf with
        | None => None
        | Some buf' =>
            match (if remove then markForRemoval (Z.of_nat id) s else Some s) with
            | None => None
            | Some s' => pack_loop dw (S j) ids' remove buf' s'
            end
        end
      end
  end.
(* simdata.cpp 414-433. dw: the member data_width. *)
Definition pack_buffer (dw : nat) (ids : list nat) (buf : list word) (remove : bool) (s : store)
  : option (list word * store) :=
  pack_loop dw 0 ids remove (enlarge (length ids * dw) buf) s.

(* One word / vector at a time as in simdata.tpp 306-313. *)
Fixpoint unpack_vecs (base dims i n : nat) (buf : list word) : option (list (list num)) :=
  match n with
  | O => Some []
  | S n' => match read_at (base + i * dims) dims buf, unpack_vecs base dims (S i) n' buf with
            | Some v, Some vs => Some (map as_real v :: vs) | _, _ => None end
  end.
Fixpoint unpack_words (base i n : nat) (buf : list word) : option (list word) :=
  match n with
  | O => Some []
  | S n' => match read_at (base + i) 1 buf, unpack_words base (S i) n' buf with
            | Some w, Some ws => Some (w ++ ws) | _, _ => None end
  end.
(* The particle whose data entries are the given ones. *)
Definition of_entries (vs : list (list num)) (ss : list num) (zs : list Z) : option part :=
  match vs, ss, zs with
  | x :: v :: f :: ev, sg :: im :: es, t :: g :: ei => Some (mkPart t g x v f sg im ev es ei)
  | _, _, _ => None
  end.
(* the body of the loop, simdata.tpp 303-313. The id map is not touched. *)
Definition unpack_one (dw j : nat) (buf : list word) (s : store) : option store :=
  match addParticles 1 false s with
  | None => None
  | Some (id, s1) =>
      match unpack_vecs (dw * j) (st_dims s) 0 (nvectors s) buf,
            unpack_words (dw * j + nvectors s * st_dims s) 0 (nscalars s) buf,
            unpack_words (dw * j + nvectors s * st_dims s + nscalars s) 0 (nintegers s) buf with
      | Some vs, Some ss, Some zs =>
          match of_entries vs (map as_real ss) (map as_int zs) with
          | None => None
          | Some p => match write (Z.to_nat id) p (st_mem s1) with Some m => Some (set_mem m s1) | None => None end
          end
      | _, _, _ => None
      end
  end.
Fixpoint unpack_loop (dw j n : nat) (buf : list word) (s : store) : option store :=
  match n with
  | O => Some s
  | S n' => match unpack_one dw j buf s with Some s' => unpack_loop dw (S j) n' buf s' | None => None end
  end.
(* simdata.tpp 299-315 *)
Definition unpack_buffer (dw n : nat) (buf : list word) (s : store) : option store := unpack_loop dw 0 n buf s.

(* ------------------------------------------------------------------ ghosts *)
(* gflow->getDisplacement(x, c) + c, one component at a time (NaN stays NaN). *)
Fixpoint relative_position (b : box) (x : list num) (c : list Q) : list num :=
  match b, x, c with
  | a :: b', xd :: x', cd :: c' =>
      option_map (fun q => cd + min_image1 a (q - cd))%Q xd :: relative_position b' x' c'
  | _, _, _ => []
  end.

(* Which data updates carry: send_ghost_velocity, send_ghost_omega, and the address of the scalar entry "Om"
   (None: not registered, the accessor is null). *)
Record ghost_layout := mkGL { send_v : bool; send_om : bool; om_entry : option nat }.
(* simdata.cpp 41-45 *)
Definition ghost_width (l : ghost_layout) (dims : nat) : nat :=
  dims + (if send_v l then dims else 0) + (if send_om l then 1 else 0).

Definition get_om (l : ghost_layout) (p : part) : option num :=
  match om_entry l with None => None | Some i => nth_error (scals p) i end.

(* simdata.cpp 442-464: one iteration. dx has room for 4 components. *)
Definition pack_ghost_one (b : box) (l : ghost_layout) (dims j : nat) (c : list Q) (p : part) (buf : list word)
  : option (list word) :=
  let w := ghost_width l dims in
  if (4 <? dims)%nat then None else
  match write_at (w * j) (map WR (relative_position b (p_x p) c)) buf with
  | None => None
  | Some b1 =>
      match (if send_v l then write_at (w * j + dims) (map WR (p_v p)) b1 else Some b1) with
      | None => None
      | Some b2 =>
          let pointer := (dims + (if send_v l then dims else 0))%nat in
          if send_om l then match get_om l p with
            | None => None
            | Some o => write_at (w * j + pointer) [WR o] b2
            end
          else Some b2
      end
  end.
Fixpoint pack_ghost_loop (b : box) (l : ghost_layout) (c : list Q) (j : nat) (ids : list nat) (buf : list word) (s : store)
  : option (list word) :=
  match ids with
  | [] => Some buf
  | id :: ids' => match nth_error (st_mem s) id with
    | None => None
    | Some p => match pack_ghost_one b l (st_dims s) j c p buf with
      | None => None
      | Some buf' => pack_ghost_loop b l c (S j) ids' buf' s
      end
    end
  end.
(* simdata.cpp 435-465 *)
Definition pack_ghost_buffer (b : box) (l : ghost_layout) (c : list Q) (ids : list nat) (buf : list word) (s : store)
  : option (list word) :=
  pack_ghost_loop b l c 0 ids (enlarge (length ids * ghost_width l (st_dims s)) buf) s.

Fixpoint set_nth {A} (i : nat) (a : A) (l : list A) : list A :=
  match l, i with [], _ => [] | _ :: l', O => a :: l' | b :: l', S i' => b :: set_nth i' a l' end.
Definition set_om (l : ghost_layout) (o : num) (p : part) : option part :=
  match om_entry l with
  | None => None
  | Some i => match set_nth i o (scals p) with
              | sg :: im :: es => Some (mkPart (p_type p) (p_gid p) (p_x p) (p_v p) (p_f p) sg im (p_evecs p) es (p_eints p))
              | _ => None end
  end.
(* simdata.cpp 472-486: one iteration; the ghost particles are a store of their own (data_entries[1]). *)
Definition unpack_ghost_one (l : ghost_layout) (dims j id : nat) (buf : list word) (m : list part) : option (list part) :=
  let w := ghost_width l dims in
  match nth_error m id, read_at (w * j) dims buf with
  | Some p, Some xs =>
      let p1 := set_x (map as_real xs) p in
      match (if send_v l then match read_at (w * j + dims) dims buf with Some vs => Some (set_v (map as_real vs) p1) | None => None end
             else Some p1) with
      | None => None
      | Some p2 =>
          let pointer := (dims + (if send_v l then dims else 0))%nat in
          match (if send_om l then match read_at (w * j + pointer) 1 buf with
                                   | Some [o] => set_om l (as_real o) p2 | _ => None end
                 else Some p2) with
          | None => None
          | Some p3 => write id p3 m
          end
      end
  | _, _ => None
  end.
Fixpoint unpack_ghost_loop (l : ghost_layout) (dims j n id : nat) (buf : list word) (m : list part) : option (list part) :=
  match n with
  | O => Some m
  | S n' => match unpack_ghost_one l dims j id buf m with
            | Some m' => unpack_ghost_loop l dims (S j) n' (S id) buf m' | None => None end
  end.
(* simdata.cpp 467-488 *)
Definition unpack_ghost_buffer (l : ghost_layout) (n start : nat) (buf : list word) (s : store) : option store :=
  option_map (fun m => set_mem m s) (unpack_ghost_loop l (st_dims s) 0 n start buf (st_mem s)).

(* simdata.tpp 270-297: pack_buffer_relative, used when ghosts are created: as pack_buffer without removal, with the
   position relative to the centre of the other processor. *)
Fixpoint pack_relative_loop (b : box) (c : list Q) (dw j : nat) (ids : list nat) (buf : list word) (s : store)
  : option (list word) :=
  match ids with
  | [] => Some buf
  | id :: ids' => match nth_error (st_mem s) id with
    | None => None
    | Some p =>
        if (4 <? st_dims s)%nat then None else
        match pack_one (st_dims s) dw j (set_x (relative_position b (p_x p) c) p) buf with
        | None => None
        | Some buf' => pack_relative_loop b c dw (S j) ids' buf' s
        end
    end
  end.
Definition pack_buffer_relative (b : box) (c : list Q) (dw : nat) (ids : list nat) (buf : list word) (s : store)
  : option (list word) :=
  pack_relative_loop b c dw 0 ids (enlarge (length ids * dw) buf) s.

(* ------------------------------------------------------------------ registration of data entries *)
(* One of the three name tables (vector_data_map, scalar_data_map, integer_data_map) and the number of entries of
   that kind in data_entries. *)
Record registry := mkReg { r_map : list (string * nat); r_entries : nat }.

(* unordered_map::find *)
Definition r_find (name : string) (r : registry) : option nat :=
  option_map snd (find (fun kv => String.eqb (fst kv) name) (r_map r)).
(* simdata.cpp 180-214 (requestVectorData, requestScalarData, requestIntegerData) *)
Definition request (name : string) (r : registry) : nat * registry :=
  match r_find name r with
  | Some a => (a, r)
  | None => (r_entries r, mkReg ((name, r_entries r) :: r_map r) (S (r_entries r)))
  end.
(* simdata.cpp 216-235 (getVectorData ...) *)
Definition get_data (name : string) (r : registry) : Z :=
  match r_find name r with Some a => Z.of_nat a | None => -1 end.
(* simdata.cpp 396-412 (addVectorData, addScalarData, addIntegerData): emplace does nothing if the name exists, the
   entry is added in any case. *)
Definition add_data (name : string) (r : registry) : registry :=
  mkReg (match r_find name r with Some _ => r_map r | None => (name, length (r_map r)) :: r_map r end) (S (r_entries r)).

(* The constructor, simdata.cpp 18-27. *)
Definition reg0 : registry := mkReg [] 0.
Definition init_vectors : registry := add_data "F" (add_data "V" (add_data "X" reg0)).
Definition init_scalars : registry := add_data "Im" (add_data "Sg" reg0).
Definition init_integers : registry := add_data "ID" (add_data "Type" reg0).

(* ScalarData(name), simdata.tpp 210-214, and IntegerData(name), 260-264 (which looks in the scalar table); the
   entry address, None: null accessor (the range check of 201-207, 249-258). *)
Definition accessor (entry : Z) (entries : nat) : option nat :=
  if (0 <=? entry) && (entry <? Z.of_nat entries) then Some (Z.to_nat entry) else None.
Definition ScalarData_named (name : string) (scalars : registry) : option nat :=
  accessor (get_data name scalars) (r_entries scalars).
Definition IntegerData_named (name : string) (scalars integers : registry) : option nat :=
  accessor (get_data name scalars) (r_entries integers).
