(** Concrete pickled systems. *)
From Verif Require Import Base ArchiveModel ArchiveProofs PickleModel PickleProofs.
From Coq Require Import ZArith NArith Lia Bool String Ascii List.
Import ListNotations.
Set Implicit Arguments.
Local Open Scope Z_scope.
Local Open Scope string_scope.
Local Open Scope list_scope.

(** ** A concrete system: two states of rubidium, a Hamiltonian with off-diagonal entries *)
Definition b10 : Z := 0x4024000000000000. (* 10.0 *)
Definition b1 : Z := 0x3FF0000000000000.
Definition st (m h : Z) : stateone := StateOneP "Rb" "Rb" 61 0 0x3F000000 m 0x3F000000 h.
Definition up : stateone := st 0x3F000000 123456789. Definition down : stateone := st 0xBF000000 987654321.
Definition unit2 : sparse Z := Sparse 2 2 [0; 1] [0; 1; 2] [b1; b1].
Definition full2 (i : Z) : sparse Z := Sparse 2 2 [0; 1; 0; i] [0; 2; 4] [b10; b1; b1; b10].
(** [i]: a row index of the Hamiltonian, 1 in the well-formed matrix *)
Definition demo_base (i : Z) : sysbase stateone Z :=
  SysBase bits_threshold bits_lowest bits_max [61] [0; 1] [0x3F000000] [0xBF000000; 0x3F000000] [up] false true false
          [(0, up); (1, down)] unit2 (full2 i) unit2 unit2.
Definition demo_one (i charge order dist : Z) (im : list (Z * sparse Z)) : sysone Z :=
  SysOne (demo_base i) "Rb" [0; 0; b10] [0; 0; b1] true NA [bits_arb] [(0, b10)] [(0, b1)] [([2; 0], b1)]
         [(0, full2 1)] [(0, unit2)] [([2; 0], full2 1)] charge order dist im.
Definition demo_cache (m : Z) (defect : string) : mecache :=
  MECache m "" defect [((1, ("Rb", (1, ([61; 61], ([0; 1], [0x3F000000; 0x3F000000]))))), b10)] [] [] [] [((1, ([0; 1], 1)), b1)]
          [] [] [] [] [].

Lemma ok_pair : forall A B (a : codec A) (b : codec B) x y, okc a x -> okc b y -> okc (cpair a b) (x, y).
Proof. intros. split; assumption. Qed.
Lemma ok_list : forall A (c : codec A) xs, Z.of_nat (List.length xs) < 256 ^ 8 -> Forall (okc c) xs -> okc (clist c) xs.
Proof. intros. split; assumption. Qed.
Lemma ok_arr : forall A n (c : codec A) xs, List.length xs = n -> Forall (okc c) xs -> okc (carr n c) xs.
Proof. intros. split; assumption. Qed.
Lemma ok_str : forall s, Z.of_nat (List.length (list_ascii_of_string s)) < 256 ^ 8 -> okc cstring s.
Proof. intros. split; [assumption|]. apply Forall_forall. intros. exact I. Qed.
Lemma ok_uint : forall k z, (0 <=? z)%Z && (z <? 256 ^ Z.of_nat k)%Z = true -> okc (cuint k) z.
Proof. intros k z H. apply andb_true_iff in H. destruct H as [H1 H2]. apply Z.leb_le in H1. apply Z.ltb_lt in H2. split; assumption. Qed.
Lemma ok_int : forall z, (- 2147483648 <=? z)%Z && (z <? 2147483648)%Z = true -> okc cint z.
Proof. intros z H. apply andb_true_iff in H. destruct H as [H1 H2]. apply Z.leb_le in H1. apply Z.ltb_lt in H2. split; assumption. Qed.
Lemma ok_sparse : forall S (c : codec S) i o ix p v,
  okc cint i -> (0 <=? o)%Z = true -> okc cint o -> okc cint (Z.of_nat (List.length v)) -> List.length ix = List.length v ->
  Z.of_nat (List.length (p ++ [Z.of_nat (List.length v)])) = o + 1 -> Forall (okc cint) ix ->
  Forall (okc cint) (p ++ [Z.of_nat (List.length v)]) -> Forall (okc c) v ->
  forallb (fun x => (0 <=? x)%Z && (x <=? Z.of_nat (List.length v))%Z) p = true ->
  okc (csparse c) (Sparse i o ix (p ++ [Z.of_nat (List.length v)]) v).
Proof.
  intros S c i o ix p v H1 H2 H3 H4 H5 H6 H7 H8 H9 H10. apply Z.leb_le in H2.
  repeat (split; [assumption|]). exists p. split; [reflexivity|]. apply Forall_forall. intros x Hx.
  rewrite forallb_forall in H10. specialize (H10 x Hx). apply andb_true_iff in H10. destruct H10 as [A B].
  apply Z.leb_le in A. apply Z.leb_le in B. split; assumption.
Qed.
Ltac okstep := lazymatch goal with
  | |- okc (cpair _ _) (_, _) => apply ok_pair
  | |- okc (clist _) _ => apply ok_list; [reflexivity|]
  | |- okc (carr _ _) _ => apply ok_arr; [reflexivity|]
  | |- okc cstring _ => apply ok_str; reflexivity
  | |- okc cbool _ => exact I
  | |- okc cint _ => apply ok_int; reflexivity
  | |- okc (cuint ?k) _ => apply ok_uint; reflexivity
  | |- okc cdouble _ => apply (@ok_uint 8%nat); reflexivity
  | |- okc cfloat _ => apply (@ok_uint 4%nat); reflexivity
  | |- okc csize _ => apply (@ok_uint 8%nat); reflexivity
  | |- Forall _ (_ ++ _) => cbn [app]
  | |- Forall _ [] => constructor
  | |- Forall _ (_ :: _) => constructor
  end.
Ltac okay := repeat (first [assumption | okstep]).

Lemma unit2_valid : okc (csparse cdouble) unit2.
Proof. apply (@ok_sparse Z cdouble 2 2 [0; 1] [0; 1] [b1; b1]); try reflexivity; okay. Qed.
Lemma full2_valid : forall i, okc cint i -> okc (csparse cdouble) (full2 i).
Proof. intros i Hi. apply (@ok_sparse Z cdouble 2 2 [0; 1; 0; i] [0; 2] [b10; b1; b1; b10]); try reflexivity; okay. Qed.
Lemma sparse0_valid : okc (csparse cdouble) sparse0.
Proof. apply (@ok_sparse Z cdouble 0 0 [] [] []); try reflexivity; okay. Qed.
Lemma st_valid : okc cstateone up /\ okc cstateone down.
Proof. split; (red; cbn [okc cstateone cmap]; unfold up, down, st; cbn [s_species s_element s_n s_l s_j s_m s_s s_hash]; okay). Qed.
Lemma demo_cache_valid : forall m d, okc cint m -> valid_cache (demo_cache m d).
Proof.
  intros m d H. unfold valid_cache, cache_tuple, ccache_saved, cradial, cangular, ccommutes, cmultipole, demo_cache.
  cbn [method dbname c_radial c_angular c_commutes_s c_commutes_l c_multipole m_radial m_angular m_commutes_s m_commutes_l m_multipole].
  okay.
Qed.

Lemma demo_one_valid : forall i c o d im, okc cint i -> valid_one cdouble (demo_one i c o d im).
Proof.
  intros i c o d im Hi. pose proof (full2_valid Hi) as F. pose proof (@full2_valid 1 ltac:(apply ok_int; reflexivity)) as F1.
  pose proof unit2_valid as U. destruct st_valid as [S1 S2]. split.
  - unfold demo_one. cbn [o_base]. unfold cbase, demo_base. cbn [okc cmap]. cbn [threshold emin emax range_n range_l range_j range_m to_add
      memory_saving contained required b_states bv ham bv_up ham_up].
    repeat apply ok_pair; okay.
  - unfold one_tuple, demo_one, cone_saved. cbn [o_species o_efield o_bfield o_diamagnetism o_reflection o_rotation o_esph o_bsph o_dia
      o_int_e o_int_b o_int_d]. repeat apply ok_pair; okay.
Qed.

Definition pairst : statetwo := StateTwoP [up; down] 5555555555.
Definition demo_two (gt : bool) (a b : sysone Z) : systwo Z :=
  SysTwo (SysBase bits_threshold bits_lowest bits_max [] [] [] [] [] false true false [(0, pairst)]
                  (Sparse 1 1 [0] [0; 1] [b1]) (Sparse 1 1 [0] [0; 1] [b10]) (Sparse 1 1 [0] [0; 1] [b1]) (Sparse 1 1 [0] [0; 1] [b10]))
         ["Rb"; "Rb"] a b b10 0 0 b10 bits_max 3 NA NA NA [0] [(3, b1)] [] [] [] [(3, Sparse 1 1 [0] [0; 1] [b1])] [] [] [] []
         gt b1 [].
Lemma one1_valid : forall x, okc cdouble x -> okc (csparse cdouble) (Sparse 1 1 [0] [0; 1] [x]).
Proof. intros x Hx. apply (@ok_sparse Z cdouble 1 1 [0] [0] [x]); try reflexivity; okay. Qed.
Lemma demo_two_valid : forall gt a b, valid_one cdouble a -> valid_one cdouble b -> valid_two cdouble (demo_two gt a b).
Proof.
  intros gt a b Va Vb. destruct st_valid as [S1 S2].
  pose proof (@one1_valid b1 ltac:(okay)) as U1. pose proof (@one1_valid b10 ltac:(okay)) as U10.
  assert (P : okc cstatetwo pairst).
  { unfold pairst, cstatetwo. cbn [okc cmap t_states t_hash]. repeat apply ok_pair; okay. }
  split; [|split; [|split; [exact Va|split; [exact Vb|]]]].
  - unfold demo_two. cbn [w_base]. unfold cbase. cbn [okc cmap]. cbn [threshold emin emax range_n range_l range_j range_m to_add
      memory_saving contained required b_states bv ham bv_up ham_up]. repeat apply ok_pair; okay.
  - cbn [w_species demo_two]. okay.
  - unfold two_tuple, demo_two, ctwo_saved. cbn [w_distance w_x w_y w_z w_surface w_ordermax w_permutation w_inversion w_reflection w_rotation
      w_angle w_dd w_dq w_qd w_int_angle w_int_m w_int_dd w_int_dq w_int_qd]. repeat apply ok_pair; okay.
Qed.
Lemma new_one_valid : forall sp, okc cstring sp -> valid_one cdouble (newOne sp).
Proof.
  intros sp H. pose proof sparse0_valid as U. split.
  - unfold newOne, newBase. cbn [o_base]. unfold cbase. cbn [okc cmap]. cbn [threshold emin emax range_n range_l range_j range_m to_add
      memory_saving contained required b_states bv ham bv_up ham_up]. repeat apply ok_pair; okay.
  - unfold one_tuple, newOne, cone_saved. cbn [o_species o_efield o_bfield o_diamagnetism o_reflection o_rotation o_esph o_bsph o_dia
      o_int_e o_int_b o_int_d]. repeat apply ok_pair; okay.
Qed.
