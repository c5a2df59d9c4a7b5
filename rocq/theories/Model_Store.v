(* Model of the particle store: src/base/simdata.{hpp,cpp,tpp}, src/base/particle-data.hpp.
   All paths are under /repo/GFlowSim/src. Simplifications common to the file:
   - int is Z / nat (no 32-bit overflow); float is [num]: None is NaN, Some q an exact value.
   - the struct-of-arrays layout is one list of records (the arrays of all data entries have the same length, the
     capacity); the default entries X,V,F / Sg,Im / Type,ID registered by the constructor (simdata.cpp 18-27) are
     fields, all further registered entries are the lists evecs, escals, eints.
   - [None] stands for undefined behaviour: an access outside the allocated arrays.
   - timers are left out. *)
From Verif Require Import Lib.
Local Open Scope Z_scope.

Definition num := option Q.

(* One entry of the arrays of particle-data.hpp 149-154. *)
Record part := mkPart {
  p_type : Z; p_gid : Z;
  p_x : list num; p_v : list num; p_f : list num;
  p_sg : num; p_im : num;
  p_evecs : list (list num); p_escals : list num; p_eints : list Z }.

(* base/simdata.hpp 330-374: the data members for owned particles. The capacity is length st_mem. *)
Record store := mkStore {
  st_dims : nat;                     (* sim_dimensions *)
  st_nev : nat; st_nes : nat; st_nei : nat; (* number of extra vector / scalar / integer entries *)
  st_mem : list part;                (* data_entries[0] *)
  st_size : nat;                     (* _size[0] *)
  st_number : Z;                     (* _number[0] *)
  st_map : Z -> option nat;          (* id_map[0], global -> local *)
  st_rm : list nat;                  (* remove_list, a std::set: ascending *)
  st_next : Z;                       (* next_global_id *)
  st_d : Z;                          (* d_global_id *)
  st_remake : bool;                  (* needs_remake *)
  st_locals : bool }.                (* the locals_changed flag of the DataMaster *)

Definition st_cap (s : store) : nat := length (st_mem s).

Definition set_mem (m : list part) (s : store) : store :=
  mkStore (st_dims s) (st_nev s) (st_nes s) (st_nei s) m (st_size s) (st_number s) (st_map s) (st_rm s) (st_next s)
    (st_d s) (st_remake s) (st_locals s).
Definition set_memmap (m : list part) (g : Z -> option nat) (s : store) : store :=
  mkStore (st_dims s) (st_nev s) (st_nes s) (st_nei s) m (st_size s) (st_number s) g (st_rm s) (st_next s)
    (st_d s) (st_remake s) (st_locals s).
Definition set_flags (r l : bool) (s : store) : store :=
  mkStore (st_dims s) (st_nev s) (st_nes s) (st_nei s) (st_mem s) (st_size s) (st_number s) (st_map s) (st_rm s)
    (st_next s) (st_d s) r l.

(* The constructor, base/simdata.cpp 12-28 (after registration of nev/nes/nei further data entries). *)
Definition empty_store (dims nev nes nei : nat) : store :=
  mkStore dims nev nes nei [] 0 0 (fun _ => None) [] 0 1 false false.

(* The values std::fill'ed in by create_memory (particle-data.hpp 79-84, 143) and written by reset_particle
   (simdata.tpp 319-324): zero vectors and scalars, integers -1. *)
Definition blank (s : store) : part :=
  mkPart (-1) (-1) (repeat (Some 0%Q) (st_dims s)) (repeat (Some 0%Q) (st_dims s)) (repeat (Some 0%Q) (st_dims s))
    (Some 0%Q) (Some 0%Q) (repeat (repeat (Some 0%Q) (st_dims s)) (st_nev s)) (repeat (Some 0%Q) (st_nes s))
    (repeat (-1) (st_nei s)).

(* particle-data.hpp 74-88, create_memory 118-145: the old data is copied, the rest filled with defaults. *)
Definition resize (extra : Z) (s : store) : store :=
  if extra <=? 0 then s else set_mem (st_mem s ++ repeat (blank s) (Z.to_nat extra)) s.

(* A write to array entry i; None if it is outside the arrays. *)
Fixpoint write (i : nat) (p : part) (m : list part) : option (list part) :=
  match m, i with
  | [], _ => None
  | _ :: m', O => Some (p :: m')
  | q :: m', S i' => match write i' p m' with Some m'' => Some (q :: m'') | None => None end
  end.

(* unordered_map::emplace: does nothing if the key is present. erase, and rebuilding with shifted keys. *)
Definition map_emplace (k : Z) (v : nat) (m : Z -> option nat) : Z -> option nat :=
  fun g => if g =? k then match m k with Some w => Some w | None => Some v end else m g.
Definition map_erase (k : Z) (m : Z -> option nat) : Z -> option nat :=
  fun g => if g =? k then None else m g.
Definition map_shift (k : Z) (m : Z -> option nat) : Z -> option nat := fun g => m (g - k).

Definition set_type (t : Z) (p : part) : part :=
  mkPart t (p_gid p) (p_x p) (p_v p) (p_f p) (p_sg p) (p_im p) (p_evecs p) (p_escals p) (p_eints p).
Definition set_gid (g : Z) (p : part) : part :=
  mkPart (p_type p) g (p_x p) (p_v p) (p_f p) (p_sg p) (p_im p) (p_evecs p) (p_escals p) (p_eints p).
Definition set_x (x : list num) (p : part) : part :=
  mkPart (p_type p) (p_gid p) x (p_v p) (p_f p) (p_sg p) (p_im p) (p_evecs p) (p_escals p) (p_eints p).
Definition set_v (v : list num) (p : part) : part :=
  mkPart (p_type p) (p_gid p) (p_x p) v (p_f p) (p_sg p) (p_im p) (p_evecs p) (p_escals p) (p_eints p).
Definition set_f (f : list num) (p : part) : part :=
  mkPart (p_type p) (p_gid p) (p_x p) (p_v p) f (p_sg p) (p_im p) (p_evecs p) (p_escals p) (p_eints p).
Definition set_sgim (sg im : num) (p : part) : part :=
  mkPart (p_type p) (p_gid p) (p_x p) (p_v p) (p_f p) sg im (p_evecs p) (p_escals p) (p_eints p).

(* simdata.tpp 30-43: the body of the loop of addParticle(int, bool). *)
Definition add_one (ids : bool) (s : store) : option store :=
  let p := set_type 0 (blank s) in
  let p := if ids then set_gid (st_next s) p else p in
  match write (st_size s) p (st_mem s) with
  | None => None
  | Some m => Some (mkStore (st_dims s) (st_nev s) (st_nes s) (st_nei s) m (S (st_size s)) (st_number s + 1)
      (if ids then map_emplace (st_next s) (st_size s) (st_map s) else st_map s) (st_rm s)
      (if ids then st_next s + st_d s else st_next s) (st_d s) (st_remake s) (st_locals s))
  end.

Fixpoint add_loop (n : nat) (ids : bool) (s : store) : option store :=
  match n with
  | O => Some s
  | S n' => match add_one ids s with Some s' => add_loop n' ids s' | None => None end
  end.

(* simdata.tpp 17-46 (and 11-15 with num = 1). static_cast<int>(0.1*k) is taken as k/10 rounded down. The result is
   the returned address and the new store. *)
Definition addParticles (num : Z) (ids : bool) (s : store) : option (Z * store) :=
  if num <=? 0 then Some (-1, s) else
  let size := Z.of_nat (st_size s) in
  let capacity := Z.of_nat (st_cap s) in
  let s1 := if capacity <? size + num then resize (Z.max 32 ((num + size - capacity) / 10)) s else s in
  match add_loop (Z.to_nat num) ids s1 with Some s2 => Some (size, s2) | None => None end.

(* simdata.tpp 48-76. *)
Definition addParticle (x v : list num) (sg im : num) (type : Z) (s : store) : option (Z * store) :=
  let size := Z.of_nat (st_size s) in
  let capacity := Z.of_nat (st_cap s) in
  let s1 := if capacity <? size + 1 then resize (Z.max 32 (size / 10)) s else s in
  let b := blank s1 in
  let p := mkPart type (st_next s1) x v (p_f b) sg im (p_evecs b) (p_escals b) (p_eints b) in
  match write (st_size s1) p (st_mem s1) with
  | None => None
  | Some m => Some (size, mkStore (st_dims s1) (st_nev s1) (st_nes s1) (st_nei s1) m (S (st_size s1)) (st_number s1 + 1)
      (map_emplace (st_next s1) (st_size s1) (st_map s1)) (st_rm s1)
      (* next_global_id++ and then += d_global_id, lines 69-70 *)
      (st_next s1 + 1 + st_d s1) (st_d s1) (st_remake s1) (st_locals s1))
  end.

(* std::set<int>::emplace. *)
Fixpoint set_insert (a : nat) (l : list nat) : list nat :=
  match l with
  | [] => [a]
  | b :: l' => if (a <? b)%nat then a :: l else if (a =? b)%nat then l else b :: set_insert a l'
  end.

(* X<particle_type>(id, 0) = -1000000.f, simdata.tpp 91. *)
Definition far_x (x : list num) : list num := match x with [] => [] | _ :: r => Some (-1000000)%Q :: r end.

(* simdata.tpp 78-94. Type(id) is read before the comparison with _size. *)
Definition markForRemoval (id : Z) (s : store) : option store :=
  if id <? 0 then None else
  let i := Z.to_nat id in
  match nth_error (st_mem s) i with
  | None => None
  | Some p =>
      if (p_type p <? 0) || (Z.of_nat (st_size s) <=? id) then Some s
      else match write i (set_x (far_x (p_x p)) (set_type (-1) p)) (st_mem s) with
           | None => None
           | Some m => Some (mkStore (st_dims s) (st_nev s) (st_nes s) (st_nei s) m (st_size s) (st_number s - 1)
               (map_erase (p_gid p) (st_map s)) (set_insert i (st_rm s)) (st_next s) (st_d s) (st_remake s) (st_locals s))
           end
  end.

(* simdata.cpp 495-526. The two iterators are found before either entry is changed. swap also sets the needs-remake
   and locals-changed flags (367-374); that is done by the callers below. *)
Definition swap_particle (id1 id2 : nat) (mg : list part * (Z -> option nat)) : option (list part * (Z -> option nat)) :=
  let '(m, g) := mg in
  match nth_error m id1, nth_error m id2 with
  | Some p1, Some p2 =>
      match write id1 p2 m with
      | None => None
      | Some m1 => match write id2 p1 m1 with
        | None => None
        | Some m2 =>
            let found k := (0 <=? k) && match g k with Some _ => true | None => false end in
            let f1 := found (p_gid p1) in let f2 := found (p_gid p2) in
            Some (m2, fun k => if f2 && (k =? p_gid p2) then Some id1
                               else if f1 && (k =? p_gid p1) then Some id2 else g k)
        end
      end
  | _, _ => None
  end.

(* simdata.cpp 109-111: the scan for the last live particle before count_back; None: Type(-1) is read. *)
Fixpoint scan_back (count_back : nat) (m : list part) : option nat :=
  match count_back with
  | O => None
  | S c => match nth_error m c with
           | None => None
           | Some p => if p_type p <? 0 then scan_back c m else Some c
           end
  end.

(* simdata.cpp 107-118. *)
Fixpoint fill_holes (rm : list nat) (count_back : nat) (removed : nat) (mg : list part * (Z -> option nat))
  : option (nat * (list part * (Z -> option nat))) :=
  match rm with
  | [] => Some (removed, mg)
  | id :: rm' =>
      match scan_back count_back (fst mg) with
      | None => None
      | Some cb =>
          if (id <? cb)%nat then
            match swap_particle cb id mg with
            | None => None
            | Some mg' => fill_holes rm' cb (S removed) mg'
            end
          else Some (removed, mg)
      end
  end.

(* simdata.cpp 98-133. *)
Definition doParticleRemoval (s : store) : option store :=
  match st_rm s with
  | [] => Some s
  | _ =>
      match fill_holes (st_rm s) (st_size s) 0 (st_mem s, st_map s) with
      | None => None
      | Some (removed, (m, g)) =>
          Some (mkStore (st_dims s) (st_nev s) (st_nes s) (st_nei s) m (Z.to_nat (st_number s)) (st_number s) g []
            (st_next s) (st_d s) (st_remake s || (0 <? removed)%nat) true)
      end
  end.

(* Comparison of floats: false as soon as one is NaN. *)
Definition num_lt (a b : num) : bool :=
  match a, b with Some p, Some q => Qltb p q | _, _ => false end.
Definition coord (p : part) (dim : nat) : num := nth dim (p_x p) None.

(* std::sort(trio, trio+3) and trio[1], simdata.cpp 543-545. *)
Definition median3 (a b c : num) : num :=
  let '(a, b) := if num_lt b a then (b, a) else (a, b) in
  if num_lt c b then (if num_lt c a then a else c) else b.

(* simdata.cpp 549-551: [i] is the index tested first. An index >= lim is reported as an error (None). *)
Fixpoint scan_up (n i dim : nat) (pivot : num) (m : list part) : option nat :=
  match n with
  | O => None
  | S n' => match nth_error m i with
            | None => None
            | Some p => if num_lt (coord p dim) pivot then scan_up n' (S i) dim pivot m else Some i
            end
  end.

(* simdata.cpp 552-554: [j] is one more than the index tested first; None: index -1 is read. *)
Fixpoint scan_down (j dim : nat) (pivot : num) (m : list part) : option nat :=
  match j with
  | O => None
  | S j' => match nth_error m j' with
            | None => None
            | Some p => if num_lt pivot (coord p dim) then scan_down j' dim pivot m else Some j'
            end
  end.

Definition mg_state := (list part * (Z -> option nat))%type.

(* simdata.cpp 547-559: the loop. i1 = i+1, j. lim is one past the last index that may be read. Fuel: None if it
   runs out (the theorems show it does not). *)
Fixpoint part_loop (fuel lim i1 j dim : nat) (pivot : num) (mg : mg_state) : option (nat * mg_state) :=
  match fuel with
  | O => None
  | S fuel' =>
      match scan_up (lim - i1) i1 dim pivot (fst mg), scan_down j dim pivot (fst mg) with
      | Some i', Some j' =>
          if (j' <=? i')%nat then Some (j', mg)
          else match swap_particle i' j' mg with
               | None => None
               | Some mg' => part_loop fuel' lim (S i') j' dim pivot mg'
               end
      | _, _ => None
      end
  end.

(* simdata.cpp 540-560. *)
Definition quick_sort_partition (start end_ dim : nat) (mg : mg_state) : option (nat * mg_state) :=
  match nth_error (fst mg) start, nth_error (fst mg) ((start + end_) / 2)%nat, nth_error (fst mg) end_ with
  | Some a, Some b, Some c =>
      part_loop (S (end_ - start)) (S end_) start (S end_) dim (median3 (coord a dim) (coord b dim) (coord c dim)) mg
  | _, _, _ => None
  end.

(* simdata.cpp 532-538. Fuel bounds the depth of the recursion. *)
Fixpoint quick_sort (fuel start end_ dim dims : nat) (mg : mg_state) : option mg_state :=
  match fuel with
  | O => None
  | S fuel' =>
      if (start <? end_)%nat && (dim <? dims)%nat then
        match quick_sort_partition start end_ dim mg with
        | None => None
        | Some (p, mg1) =>
            match quick_sort fuel' start p dim dims mg1 with
            | None => None
            | Some mg2 => quick_sort fuel' (S p) end_ dim dims mg2
            end
        end
      else Some mg
  end.

(* simdata.cpp 562-577, with the loop written out (sort_bins = 5, min_particles = 10). The bin limits are counted
   from 0, not from start, as in the code. *)
Definition sort_range (start end_ dim dims : nat) (mg : mg_state) : option mg_state :=
  quick_sort (S (end_ - start)) start end_ dim dims mg.
Fixpoint recursion_help (levels start end_ dim dims number : nat) (mg : mg_state) : option mg_state :=
  match levels with
  | O => Some mg                      (* dim >= sim_dimensions *)
  | S levels' =>
      let ds := ((end_ - start) / 5)%nat in
      if (10 <? ds)%nat then
        let bin i (a : option mg_state) :=
          match a with None => None | Some mg =>
          match sort_range (i * ds) ((i + 1) * ds) dim dims mg with None => None | Some mg1 =>
          recursion_help levels' (i * ds) ((i + 1) * ds) (S dim) dims number mg1 end end in
        match bin 4%nat (bin 3%nat (bin 2%nat (bin 1%nat (bin 0%nat (Some mg))))) with
        | None => None
        | Some mg5 =>
            match sort_range (5 * ds) (number - 1) dim dims mg5 with
            | None => None
            | Some mg6 => recursion_help levels' (5 * ds) (number - 1) (S dim) dims number mg6
            end
        end
      else Some mg
  end.

(* simdata.cpp 147-156: sortParticles(Vec&) ("for now: just sort along x axis"). The ghosts are dropped first
   (removeGhostParticles does not touch the owned particles). quick_sort(0, -1, 0) does nothing for an empty store. *)
Definition sortParticles_along (s : store) : option store :=
  match doParticleRemoval s with
  | None => None
  | Some s1 =>
      match (if (st_size s1 =? 0)%nat then Some (st_mem s1, st_map s1)
             else sort_range 0 (st_size s1 - 1) 0 (st_dims s1) (st_mem s1, st_map s1)) with
      | None => None
      | Some (m, g) => Some (set_flags true true (set_memmap m g s1))
      end
  end.

(* simdata.cpp 135-145: sortParticles(). *)
Definition sortParticles (s : store) : option store :=
  match doParticleRemoval s with
  | None => None
  | Some s1 =>
      match (if (st_size s1 =? 0)%nat then Some (st_mem s1, st_map s1)
             else match sort_range 0 (st_size s1 - 1) 0 (st_dims s1) (st_mem s1, st_map s1) with
                  | None => None
                  | Some mg => recursion_help (st_dims s1 - 1) 0 (st_size s1 - 1) 1 (st_dims s1)
                                 (Z.to_nat (st_number s1)) mg
                  end) with
      | None => None
      | Some (m, g) => Some (set_flags true true (set_memmap m g s1))
      end
  end.

Definition is_nan (a : num) : bool := match a with None => true | Some _ => false end.
(* simdata.cpp 163-165: some component of position or velocity is nan (both have sim_dimensions components). *)
Definition bad (p : part) : bool := existsb is_nan (p_x p) || existsb is_nan (p_v p).

(* simdata.cpp 162-171. *)
Fixpoint mark_bad (n i : nat) (some : bool) (s : store) : option (bool * store) :=
  match n with
  | O => Some (some, s)
  | S n' => match nth_error (st_mem s) i with
            | None => None
            | Some p => if bad p then match markForRemoval (Z.of_nat i) s with
                                      | None => None
                                      | Some s' => mark_bad n' (S i) true s'
                                      end
                        else mark_bad n' (S i) some s
            end
  end.
(* simdata.cpp 158-179. *)
Definition removeBadParticles (do_removal : bool) (s : store) : option (bool * store) :=
  match mark_bad (st_size s) 0 false s with
  | None => None
  | Some (some, s1) =>
      if some && do_removal then
        match doParticleRemoval s1 with Some s2 => Some (some, set_flags true true s2) | None => None end
      else Some (some, s1)
  end.

(* Apply a function to the first n entries: loops "for i < _size[0]". *)
Fixpoint map_first (n : nat) (f : part -> part) (m : list part) : list part :=
  match n, m with
  | S n', p :: m' => f p :: map_first n' f m'
  | _, _ => m
  end.

(* simdata.cpp 380-394. *)
Definition shift_global_ids (k : Z) (s : store) : store :=
  set_memmap (map_first (st_size s) (fun p => if 0 <=? p_gid p then set_gid (p_gid p + k) p else p) (st_mem s))
    (map_shift k (st_map s)) s.

(* simdata.cpp 305-323. *)
Definition clearF (s : store) : store :=
  set_mem (map_first (st_size s) (fun p => set_f (repeat (Some 0%Q) (st_dims s)) p) (st_mem s)) s.
Definition clearV (s : store) : store :=
  set_mem (map_first (st_size s) (fun p => set_v (repeat (Some 0%Q) (st_dims s)) p) (st_mem s)) s.

(* simdata.cpp 338-345. *)
Definition getLocalID (g : Z) (s : store) : Z :=
  match st_map s g with Some l => Z.of_nat l | None => -1 end.

(* Writes through X(id), V(id), F(id), Sg(id), Im(id) (simdata.tpp 104-196). *)
Definition modify (id : Z) (f : part -> part) (s : store) : option store :=
  if id <? 0 then None else
  match nth_error (st_mem s) (Z.to_nat id) with
  | None => None
  | Some p => match write (Z.to_nat id) (f p) (st_mem s) with Some m => Some (set_mem m s) | None => None end
  end.

(* simdata.cpp 88-96 and particle-data.hpp 91-97: the arrays are freed but the capacity is kept when the new arrays
   are allocated; entries below the old capacity are uninitialised ([junk]). id_map and remove_list are not reset. *)
Definition reserve (n : Z) (junk : nat -> part) (s : store) : store :=
  if (0 <? st_number s) || (Z.of_nat (st_cap s) <? n) then
    let m := if n <=? 0 then st_mem s
             else map junk (seq 0 (st_cap s)) ++ repeat (blank s) (Z.to_nat n) in
    mkStore (st_dims s) (st_nev s) (st_nes s) (st_nei s) m 0 0 (st_map s) (st_rm s) (st_next s) (st_d s)
      (st_remake s) (st_locals s)
  else s.

(* The public operations on owned particles. *)
Inductive op :=
| OpAddMany (n : Z) (ids : bool)
| OpAdd (x v : list num) (sg im : num) (type : Z)
| OpMark (id : Z)
| OpRemove
| OpSortAlong
| OpSort
| OpRemoveBad (do_removal : bool)
| OpShift (k : Z)
| OpClearF | OpClearV
| OpSetX (id : Z) (x : list num) | OpSetV (id : Z) (v : list num) | OpSetF (id : Z) (f : list num)
| OpSetSgIm (id : Z) (sg im : num).

Definition step (o : op) (s : store) : option store :=
  match o with
  | OpAddMany n ids => option_map snd (addParticles n ids s)
  | OpAdd x v sg im t => option_map snd (addParticle x v sg im t s)
  | OpMark id => markForRemoval id s
  | OpRemove => doParticleRemoval s
  | OpSortAlong => sortParticles_along s
  | OpSort => sortParticles s
  | OpRemoveBad b => option_map snd (removeBadParticles b s)
  | OpShift k => Some (shift_global_ids k s)
  | OpClearF => Some (clearF s)
  | OpClearV => Some (clearV s)
  | OpSetX id x => modify id (set_x x) s
  | OpSetV id v => modify id (set_v v) s
  | OpSetF id f => modify id (set_f f) s
  | OpSetSgIm id sg im => modify id (set_sgim sg im) s
  end.

Fixpoint run (ops : list op) (s : store) : option store :=
  match ops with
  | [] => Some s
  | o :: ops' => match step o s with Some s' => run ops' s' | None => None end
  end.

(* base/creator.cpp 135-161 (correct_global_ids) on the processor [rank]; [sizes] is the result of the allgather of
   size_owned(). The correction of the groups' ids (150-151) is in Model_Group. *)
Definition correct_global_ids (rank : nat) (sizes : list nat) (s : store) : store :=
  let sum l := fold_right Nat.add 0%nat l in
  let s1 := if (0 <? rank)%nat then shift_global_ids (Z.of_nat (sum (firstn rank sizes))) s else s in
  mkStore (st_dims s1) (st_nev s1) (st_nes s1) (st_nei s1) (st_mem s1) (st_size s1) (st_number s1) (st_map s1) (st_rm s1)
    (Z.of_nat (sum sizes) + 1 + Z.of_nat rank) (Z.of_nat (length sizes)) (st_remake s1) (st_locals s1).
