(** Model of pickling systems: serialize of MatrixElementCache, StateOne, StateTwo, SystemBase, SystemOne, SystemTwo and the
    Python methods __getstate__ and __setstate__ (Interface.i:69-88, 262-297).  No proofs.

    Doubles and floats are bit patterns (ArchiveModel.v).  An unordered map is the list of its entries in the order of
    iteration.  Memory for what is read is assumed to be available. *)
From Verif Require Import Base ArchiveModel.
From Coq Require Import ZArith Bool String Ascii List.
Import ListNotations.
Set Implicit Arguments.
Local Open Scope Z_scope.
Declare Scope ar_scope.
Local Open Scope ar_scope.
(** ar & a & b *)
Notation "a & b" := (cpair a b) (at level 80, right associativity) : ar_scope.

(** Bit pattern of std::numeric_limits<double>::max(); of std::numeric_limits<double>::lowest(); of the double 0.05 (the nearest);
    of the float ARB = 32767 (Constants.hpp:43).
    NA = INT_MAX (Symmetry.hpp:26-30). *)
Definition bits_max : Z := 0x7FEFFFFFFFFFFFFF.
Definition bits_lowest : Z := 0xFFEFFFFFFFFFFFFF.
Definition bits_threshold : Z := 0x3FA999999999999A.
Definition bits_arb : Z := 0x46FFFE00.
Definition ARB : Z := 32767.
Definition NA : Z := 2147483647.

(** ** MatrixElementCache: keys (MatrixElementCache.hpp:93-165) in the order of serialize *)
Notation radial_key := (Z * (string * (Z * (list Z * (list Z * list Z)))))%type.
Definition cradial : codec radial_key := cint & cstring & cint & carr 2 cint & carr 2 cint & carr 2 cfloat.
Notation angular_key := (Z * (list Z * (list Z * Z)))%type.
Definition cangular : codec angular_key := cint & carr 2 cfloat & carr 2 cfloat & cint.
Notation commutes_key := (Z * (Z * (list Z * (list Z * Z))))%type.
Definition ccommutes : codec commutes_key := cfloat & cint & carr 2 cint & carr 2 cfloat & cint.
Notation multipole_key := (Z * (list Z * Z))%type.
Definition cmultipole : codec multipole_key := cint & carr 2 cint & cint.

(** Members of the cache without the database handle (MatrixElementCache.hpp:181-207) *)
Record mecache : Type := MECache {
  method : Z; dbname : string; defectdb : string;
  c_radial : list (radial_key * Z); c_angular : list (angular_key * Z);
  c_commutes_s : list (commutes_key * Z); c_commutes_l : list (commutes_key * Z);
  c_multipole : list (multipole_key * Z);
  m_radial : list radial_key; m_angular : list angular_key;
  m_commutes_s : list commutes_key; m_commutes_l : list commutes_key; m_multipole : list multipole_key }.
(** MatrixElementCache() (MatrixElementCache.cpp:83-84): NUMEROV, no database *)
Definition newCache : mecache := MECache 0 "" "" [] [] [] [] [] [] [] [] [] [].

(** MatrixElementCache::serialize (MatrixElementCache.hpp:215-228): everything but defectdbname *)
Definition ccache_saved := cint & cstring & clist (cradial & cdouble) & clist (cangular & cdouble) &
  clist (ccommutes & cdouble) & clist (ccommutes & cdouble) & clist (cmultipole & cdouble) &
  clist cradial & clist cangular & clist ccommutes & clist ccommutes & clist cmultipole.
Definition cache_tuple (c : mecache) :=
  (method c, (dbname c, (c_radial c, (c_angular c, (c_commutes_s c, (c_commutes_l c, (c_multipole c,
   (m_radial c, (m_angular c, (m_commutes_s c, (m_commutes_l c, m_multipole c))))))))))).
Definition save_cache (c : mecache) : bytes := enc ccache_saved (cache_tuple c).
(** Loading into the cache [t]; afterwards the database is opened if there is one (228-237).  [opens]: the file can be opened. *)
Definition load_cache (opens : string -> bool) (t : mecache) (bs : bytes) : res (mecache * bytes) :=
  do! ((m, (d, (r, (a, (cs, (cl, (mu, (r', (a', (cs', (cl', mu'))))))))))), bs) <- dec ccache_saved bs ;
  if (String.eqb d "") || opens d then Ok (MECache m d (defectdb t) r a cs cl mu r' a' cs' cl' mu', bs) else Throw.

(** ** States (State.hpp:86-92, 168-175) *)
Record stateone : Type := StateOneP { s_species : string; s_element : string; s_n : Z; s_l : Z; s_j : Z; s_m : Z; s_s : Z; s_hash : Z }.
Definition cstateone : codec stateone :=
  cmap (fun '(sp, (el, (n, (l, (j, (m, (s, h))))))) => StateOneP sp el n l j m s h)
       (fun x => (s_species x, (s_element x, (s_n x, (s_l x, (s_j x, (s_m x, (s_s x, s_hash x))))))))
       (cstring & cstring & cint & cint & cfloat & cfloat & cfloat & csize).
Record statetwo : Type := StateTwoP { t_states : list stateone; t_hash : Z }.
Definition cstatetwo : codec statetwo :=
  cmap (fun '(a, h) => StateTwoP a h) (fun x => (t_states x, t_hash x)) (carr 2 cstateone & csize).

(** ** SystemBase (SystemBase.hpp:292-310); St: states, K: scalars *)
Record sysbase (St K : Type) : Type := SysBase {
  threshold : Z; emin : Z; emax : Z; range_n : list Z; range_l : list Z; range_j : list Z; range_m : list Z;
  to_add : list St; memory_saving : bool; contained : bool; required : bool;
  b_states : list (Z * St);               (* states with their idx *)
  bv : sparse K; ham : sparse K; bv_up : sparse K; ham_up : sparse K }.
(** Eigen::SparseMatrix(): no row, no column; the outer index array is allocated by resize, so the one entry exists. *)
Definition sparse0 {K} : sparse K := Sparse 0 0 [] [0] [].
(** SystemBase(cache) and SystemBase(cache, memory_saving) (SystemBase.cpp:1294-1307) *)
Definition newBase {St K} (ms : bool) : sysbase St K :=
  SysBase bits_threshold bits_lowest bits_max [] [] [] [] [] ms false false [] sparse0 sparse0 sparse0 sparse0.
(** SystemBase::serialize without the cache (SystemBase.hpp:396-405) *)
Definition cbase {St K} (cs : codec St) (ck : codec K) : codec (sysbase St K) :=
  cmap (fun '(th, (e1, (e2, (rn, (rl, (rj, (rm, (ta, (ms, (co, (re, (st, (v, (h, (v', h'))))))))))))))) =>
          SysBase th e1 e2 rn rl rj rm ta ms co re st v h v' h')
       (fun x => (threshold x, (emin x, (emax x, (range_n x, (range_l x, (range_j x, (range_m x, (to_add x, (memory_saving x,
          (contained x, (required x, (b_states x, (bv x, (ham x, (bv_up x, ham_up x))))))))))))))))
       (cdouble & cdouble & cdouble & clist cint & clist cint & clist cfloat & clist cfloat & clist cs &
        cbool & cbool & cbool & clist (csize & cs) & csparse ck & csparse ck & csparse ck & csparse ck).

(** ** SystemOne (SystemOne.hpp:79-96) *)
Record sysone (K : Type) : Type := SysOne {
  o_base : sysbase stateone K;
  o_species : string; o_efield : list Z; o_bfield : list Z; o_diamagnetism : bool; o_reflection : Z; o_rotation : list Z;
  o_esph : list (Z * K); o_bsph : list (Z * K); o_dia : list (list Z * K);
  o_int_e : list (Z * sparse K); o_int_b : list (Z * sparse K); o_int_d : list (list Z * sparse K);
  (* not saved *)
  o_charge : Z; o_ordermax : Z; o_distance : Z; o_int_m : list (Z * sparse K) }.
(** SystemOne(species, cache) (SystemOne.cpp:39-43) *)
Definition newOne {K} (species : string) : sysone K :=
  SysOne (newBase false) species [0; 0; 0] [0; 0; 0] true NA [bits_arb] [] [] [] [] [] [] 0 0 bits_max [].
(** SystemOne::serialize after the base class (SystemOne.hpp:171-177) *)
Definition cone_saved {K} (ck : codec K) :=
  cstring & carr 3 cdouble & carr 3 cdouble & cbool & cint & clist cfloat &
  clist (cint & ck) & clist (cint & ck) & clist (carr 2 cint & ck) &
  clist (cint & csparse ck) & clist (cint & csparse ck) & clist (carr 2 cint & csparse ck).
Definition one_tuple {K} (s : sysone K) :=
  (o_species s, (o_efield s, (o_bfield s, (o_diamagnetism s, (o_reflection s, (o_rotation s,
   (o_esph s, (o_bsph s, (o_dia s, (o_int_e s, (o_int_b s, o_int_d s))))))))))).
(** Saving a SystemOne that works with the cache [c]: the base class writes *m_cache first *)
Definition save_one {K} (ck : codec K) (c : mecache) (s : sysone K) : bytes :=
  save_cache c ++ enc (cbase cstateone ck) (o_base s) ++ enc (cone_saved ck) (one_tuple s).
(** multi_index load appends to the states that are there (SystemBase.hpp:103-114) *)
Definition set_base {St K} (old new : sysbase St K) : sysbase St K :=
  SysBase (threshold new) (emin new) (emax new) (range_n new) (range_l new) (range_j new) (range_m new) (to_add new)
          (memory_saving new) (contained new) (required new) (b_states old ++ b_states new)
          (bv new) (ham new) (bv_up new) (ham_up new).
(** Loading into the object [t] whose m_cache points to [c] *)
Definition load_one {K} (ck : codec K) (opens : string -> bool) (c : mecache) (t : sysone K) (bs : bytes)
  : res (mecache * sysone K * bytes) :=
  do! (c', bs) <- load_cache opens c bs ;
  do! (b, bs) <- dec (cbase cstateone ck) bs ;
  do! ((sp, (e, (b', (d, (rf, (ro, (es, (bs', (di, (ie, (ib, id))))))))))), bs) <- dec (cone_saved ck) bs ;
  Ok (c', SysOne (set_base (o_base t) b) sp e b' d rf ro es bs' di ie ib id
                 (o_charge t) (o_ordermax t) (o_distance t) (o_int_m t), bs).

(** ** SystemTwo (SystemTwo.hpp:80-107) *)
Record systwo (K : Type) : Type := SysTwo {
  w_base : sysbase statetwo K;
  w_species : list string; w_one1 : sysone K; w_one2 : sysone K;
  w_distance : Z; w_x : Z; w_y : Z; w_z : Z; w_surface : Z; w_ordermax : Z;
  w_permutation : Z; w_inversion : Z; w_reflection : Z; w_rotation : list Z;
  w_angle : list (Z * Z); w_dd : list (Z * Z); w_dq : list (Z * Z); w_qd : list (Z * Z);
  w_int_angle : list (Z * sparse K); w_int_m : list (Z * sparse K);
  w_int_dd : list (Z * sparse K); w_int_dq : list (Z * sparse K); w_int_qd : list (Z * sparse K);
  (* not saved *)
  w_gt : bool; w_leroy : Z; w_basisvectors : list (list Z) }.
(** SystemTwo(b1, b2, cache) (SystemTwo.cpp:41-50) *)
Definition newTwo {K} (a b : sysone K) : systwo K :=
  SysTwo (newBase false) [o_species a; o_species b] a b bits_max 0 0 bits_max bits_max 3 NA NA NA [ARB]
         [] [] [] [] [] [] [] [] [] false bits_max [].
(** SystemTwo::serialize after the one-atom systems (SystemTwo.hpp:189-197) *)
Definition ctwo_saved {K} (ck : codec K) :=
  cdouble & cdouble & cdouble & cdouble & cdouble & cuint 4 & cint & cint & cint & clist cint &
  clist (cint & cdouble) & clist (cint & cdouble) & clist (cint & cdouble) & clist (cint & cdouble) &
  clist (cint & csparse ck) & clist (cint & csparse ck) & clist (cint & csparse ck) & clist (cint & csparse ck) &
  clist (cint & csparse ck).
Definition two_tuple {K} (s : systwo K) :=
  (w_distance s, (w_x s, (w_y s, (w_z s, (w_surface s, (w_ordermax s, (w_permutation s, (w_inversion s, (w_reflection s,
   (w_rotation s, (w_angle s, (w_dd s, (w_dq s, (w_qd s, (w_int_angle s, (w_int_m s, (w_int_dd s, (w_int_dq s, w_int_qd s)))))))))))))))))).
(** Saving: [c] is the cache of the system, [c1] and [c2] those of its one-atom systems (often the same object) *)
Definition save_two {K} (ck : codec K) (c c1 c2 : mecache) (s : systwo K) : bytes :=
  save_cache c ++ enc (cbase cstatetwo ck) (w_base s) ++ enc (carr 2 cstring) (w_species s) ++
  save_one ck c1 (w_one1 s) ++ save_one ck c2 (w_one2 s) ++ enc (ctwo_saved ck) (two_tuple s).
(** Loading into [t]; its m_cache and those of its one-atom systems all point to the same cache *)
Definition load_two {K} (ck : codec K) (opens : string -> bool) (c : mecache) (t : systwo K) (bs : bytes)
  : res (mecache * systwo K * bytes) :=
  do! (c, bs) <- load_cache opens c bs ;
  do! (b, bs) <- dec (cbase cstatetwo ck) bs ;
  do! (sp, bs) <- dec (carr 2 cstring) bs ;
  do! (c, o1, bs) <- load_one ck opens c (w_one1 t) bs ;
  do! (c, o2, bs) <- load_one ck opens c (w_one2 t) bs ;
  do! ((d, (x, (y, (z, (su, (om, (p, (i, (rf, (ro, (an, (dd, (dq, (qd, (ia, (im, (idd, (idq, iqd)))))))))))))))))), bs)
    <- dec (ctwo_saved ck) bs ;
  Ok (c, SysTwo (set_base (w_base t) b) sp o1 o2 d x y z su om p i rf ro an dd dq qd ia im idd idq iqd
                (w_gt t) (w_leroy t) (w_basisvectors t), bs).

(** ** Python: m_cache is a raw pointer (SystemBase.hpp:292); reading it after the cache is gone is undefined. *)
Inductive cacheptr := Alive (c : mecache) | Gone.
Definition deref (p : cacheptr) : res mecache := match p with Alive c => Ok c | Gone => UB end.

(** __getstate__ (Interface.i:71-76) *)
Definition getstate_one {K} (ck : codec K) (p : cacheptr) (s : sysone K) : res bytes :=
  do! c <- deref p ; Ok (save_one ck c s).
Definition getstate_two {K} (ck : codec K) (p p1 p2 : cacheptr) (s : systwo K) : res bytes :=
  do! c <- deref p ; do! c1 <- deref p1 ; do! c2 <- deref p2 ; Ok (save_two ck c c1 c2 s).
(** __setstate__ (Interface.i:262-297): the temporary cache dies when the method returns.  The bytes that follow the object are
    ignored (78-86). *)
Definition setstate_one {K} (ck : codec K) (opens : string -> bool) (bs : bytes) : res (cacheptr * sysone K) :=
  do! (c, s, _) <- load_one ck opens newCache (newOne "") bs ; Ok (Gone, s).
Definition setstate_two {K} (ck : codec K) (opens : string -> bool) (bs : bytes) : res (cacheptr * systwo K) :=
  do! (c, s, _) <- load_two ck opens newCache (newTwo (newOne "") (newOne "")) bs ; Ok (Gone, s).

(** checkDistance (SystemTwo.cpp:1537-1567), the first thing initializeInteraction does once a distance is set (656-662): the Le Roy
    radius is looked up with the cache unless it is known already; only states of two real atoms are asked for. *)
Definition real_pair (t : statetwo) : bool := forallb (fun x => negb (s_n x =? 0)) (t_states t).
Definition checkDistance_reads {K} (p : cacheptr) (s : systwo K) : res unit :=
  if w_distance s =? bits_max then Ok tt
  else if (w_leroy s =? bits_max) && existsb (fun e => real_pair (snd e)) (b_states (w_base s))
       then do! _ <- deref p ; Ok tt else Ok tt.

(** Orders of the interaction with the ion that initializeInteraction and addInteraction go through (SystemOne.cpp:379-384, 621-626;
    the matrices in interaction_multipole, which are not saved either, are computed from these). *)
Definition ion_orders {K} (s : sysone K) : list nat := if o_charge s =? 0 then [] else seq 1 (Z.to_nat (o_ordermax s)).

(** __setstate_internal with any Python object (Interface.i:78-86): the result of PyBytes_AsStringAndSize is not looked at; for
    anything but bytes, buffer and len stay uninitialised. *)
Inductive pyobj := PyBytes (bs : bytes) | PyOther.
Definition setstate_py_one {K} (ck : codec K) (opens : string -> bool) (o : pyobj) : res (cacheptr * sysone K) :=
  match o with PyBytes bs => setstate_one ck opens bs | PyOther => UB end.
