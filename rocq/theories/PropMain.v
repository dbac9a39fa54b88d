(** C104: what the command line program computes and how it ends. *)
From Coq Require Import Bool Arith Lia List String.
Import ListNotations.
From Verif Require Import Base ConfModel ConfProofs MainModel.
Local Open Scope string_scope.
Local Open Scope list_scope.
Set Implicit Arguments.

(** *** Specification *)
Inductive option_name := Config | Output | Type_.
(** The two spellings of an option. *)
Definition spelled (o : option_name) (long : bool) : string :=
  match o, long with
  | Config, false => "-c" | Config, true => "--config" | Output, false => "-o" | Output, true => "--output"
  | Type_, false => "-t" | Type_, true => "--type" end.
(** The command line for options with their values. *)
Definition line_of (l : list (option_name * bool * string)) : list string := flat_map (fun x => [spelled (fst (fst x)) (snd (fst x)); snd x]) l.
(** [v] is the value of the last option [o] of the line. *)
Definition chosen (l : list (option_name * bool * string)) (o : option_name) (v : string) : Prop :=
  exists before long after, l = before ++ (o, long, v) :: after /\ forall b w, ~ In (o, b, w) after.
Definition set_ (c : conf) (k : string) : Prop := exists v, get c k = Some v.
(** All quantum numbers of an atom are given. *)
Definition described (c : conf) (ks : list string) : Prop := Forall (set_ c) ks.
Definition atom1 : list string := ["species1"; "n1"; "l1"; "j1"; "m1"].
Definition atom2 : list string := ["species2"; "n2"; "l2"; "j2"; "m2"].
(** The atom is calculated: by a calculation of its own, or by the one for both atoms. *)
Definition calculated (ev : list event) (own : nat) : Prop := (In (Typ own) ev \/ In (Typ 3) ev) /\ NoDup ev.

(** *** Proofs *)
Definition value_of (l : list (option_name * bool * string)) (o : option_name) (d : string) : string :=
  fold_left (fun d x => match fst (fst x), o with Config, Config => snd x | Output, Output => snd x | Type_, Type_ => snd x | _, _ => d end) l d.

Lemma parse_line : forall l rest c o t, parse c o t (line_of l ++ rest) = parse (value_of l Config c) (value_of l Output o) (value_of l Type_ t) rest.
Proof.
  induction l as [|[[[] []] v] l IH]; intros rest c o t; [reflexivity| | | | | |]; cbn [line_of flat_map app spelled fst snd]; fold (line_of l);
    rewrite <- ?app_assoc; cbn [app parse]; unfold value_of; cbn [fold_left fst snd]; apply IH.
Qed.

Lemma value_app : forall l l' o d, value_of (l ++ l') o d = value_of l' o (value_of l o d).
Proof. intros. unfold value_of. apply fold_left_app. Qed.
Lemma value_none : forall l o d, (forall b w, ~ In (o, b, w) l) -> value_of l o d = d.
Proof.
  induction l as [|[[p b] w] l IH]; intros o d H; [reflexivity|]. unfold value_of. cbn [fold_left fst snd].
  fold (value_of l o (match p, o with Config, Config => w | Output, Output => w | Type_, Type_ => w | _, _ => d end)).
  rewrite IH by (intros b' w' I; apply (H b' w'); right; exact I).
  destruct p, o; try reflexivity; exfalso; apply (H b w); left; reflexivity.
Qed.
Lemma value_chosen : forall l o v d, chosen l o v -> value_of l o d = v.
Proof.
  intros l o v d (b & g & a & -> & N). rewrite value_app. change ((o, g, v) :: a) with ([(o, g, v)] ++ a). rewrite value_app, value_none by exact N.
  destruct o; reflexivity.
Qed.

Section Run.
Variable calculate : calculation -> conf -> string -> bool -> bool.
Variable file : string -> option conf.
Notation run := (main calculate file).

(** C104: options may be given in any order and spelling, the last one of a kind counts, and the calculation is the one for these values. *)
Theorem C104_options : forall l config output type, chosen l Config config -> chosen l Output output -> chosen l Type_ type ->
  config <> "" -> output <> "" ->
  (type = "complex" -> run (line_of l) = compute calculate file true config output) /\
  (type = "real" -> run (line_of l) = compute calculate file false config output) /\
  (type <> "complex" -> type <> "real" -> run (line_of l) = ([Message], Exit 1)).
Proof.
  intros l config output type C O T Nc No.
  assert (P : parse "" "" "" (line_of l) = if type =? "" then Quit [Message] 1 else Given config output type).
  { rewrite <- (app_nil_r (line_of l)), parse_line, (value_chosen "" C), (value_chosen "" O), (value_chosen "" T). cbn [parse].
    apply String.eqb_neq in Nc. apply String.eqb_neq in No. rewrite Nc, No. reflexivity. }
  assert (Ne : line_of l <> []) by (destruct C as (b & g & a & -> & _); destruct b as [|[[]]]; discriminate).
  unfold main. destruct (line_of l) as [|x y] eqn:E; [congruence|]. rewrite P.
  split; [intros ->; reflexivity|]. split; [intros ->; reflexivity|]. intros N1 N2.
  destruct (type =? "") eqn:Q; [reflexivity|]. apply String.eqb_neq in N1, N2. rewrite N1, N2. reflexivity.
Qed.

(** C104: without one of the three options, with an empty value or with an unknown word nothing is calculated and the exit status is 1. *)
Theorem C104_refused : forall l o, l <> [] ->
  (forall v, chosen l o v -> v = "") \/ (forall b w, ~ In (o, b, w) l) ->
  run (line_of l) = ([Message], Exit 1).
Proof.
  intros l o Ne H.
  assert (V : value_of l o "" = "").
  { assert (D : (forall b w, ~ In (o, b, w) l) \/ exists v, chosen l o v).
    { clear. induction l as [|[[p b] w] l IH] using rev_ind; [left; intros b w []|].
      destruct (match p, o with Config, Config => true | Output, Output => true | Type_, Type_ => true | _, _ => false end) eqn:E.
      - assert (p = o) by (destruct p, o; auto; discriminate). subst p. right. exists w, l, b, []. split; [reflexivity|]. intros ? ? [].
      - assert (Npo : p <> o) by (intro; subst; destruct o; discriminate). destruct IH as [IH|(v & bf & g & a & -> & N)].
        + left. intros b' w' I. apply in_app_or in I. destruct I as [I|[I|[]]]; [apply (IH _ _ I)|injection I; intros; apply Npo; auto].
        + right. exists v, bf, g, (a ++ [(p, b, w)]). split; [rewrite <- app_assoc; reflexivity|].
          intros b' w' I. apply in_app_or in I. destruct I as [I|[I|[]]]; [apply (N _ _ I)|injection I; intros; apply Npo; auto]. }
    destruct D as [D|(v & D)]; [apply value_none; exact D|]. destruct H as [H|H].
    - rewrite (value_chosen "" D). apply H; exact D.
    - apply value_none; exact H. }
  unfold main. destruct (line_of l) as [|x y] eqn:E; [destruct l as [|[[]]]; [congruence|discriminate]|]. rewrite <- E.
  rewrite <- (app_nil_r (line_of l)), parse_line. cbn [parse]. destruct o; rewrite V; change ("" =? "") with true; cbv iota;
    [reflexivity|destruct (value_of l Config "" =? ""); reflexivity|destruct (value_of l Config "" =? ""); [reflexivity|destruct (value_of l Output "" =? ""); reflexivity]].
Qed.
Definition known (w : string) : Prop := w = "-?" \/ w = "--help" \/ exists o long, w = spelled o long.
Theorem C104_unknown : forall l w rest, ~ known w -> run (line_of l ++ w :: rest) = ([Message; Usage], Exit 1).
Proof.
  intros l w rest N. unfold main. destruct (line_of l ++ w :: rest) eqn:E; [destruct (line_of l); discriminate|]. rewrite <- E, parse_line.
  assert (F : forall s, s <> w -> (w =? s) = false) by (intros; apply String.eqb_neq; congruence).
  cbn [parse]. rewrite !F; [reflexivity|..]; intro; subst; apply N; unfold known; auto; right; right;
    [exists Type_, true|exists Type_, false|exists Output, true|exists Output, false|exists Config, true|exists Config, false]; reflexivity.
Qed.

Lemma perform_spec : forall c o x l ev e, perform calculate c o x l = (ev, e) ->
  (e = Exit 0 /\ ev = map (fun k => Typ (number k)) l ++ [End_] /\ Forall (fun k => calculate k c o x = true) l) \/ (e = Aborted /\ ~ In End_ ev).
Proof.
  induction l as [|k l IH]; intros ev e H; cbn in H.
  - injection H as <- <-. left. split; [reflexivity|]. split; [reflexivity|constructor].
  - destruct (calculate k c o x) eqn:C.
    + destruct (perform calculate c o x l) as [ev' e'] eqn:P. injection H as <- <-. destruct (IH _ _ eq_refl) as [(-> & -> & F)|(-> & N)].
      * left. split; [reflexivity|]. split; [reflexivity|constructor; auto].
      * right. split; [reflexivity|]. intros [I|I]; [discriminate|auto].
    + injection H as <- <-. right. split; [reflexivity|]. intros [I|[]]; discriminate.
Qed.

(** C104: ">>END" is printed exactly by the runs that end with status 0 after the calculations, as the last line and once. *)
Theorem C104_end : forall args ev e, run args = (ev, e) ->
  (In End_ ev -> e = Exit 0 /\ exists front, ev = front ++ [End_] /\ ~ In End_ front) /\
  (e = Exit 0 -> ev = [Usage] \/ In End_ ev).
Proof.
  assert (Q : forall args c o t ev s, parse c o t args = Quit ev s -> ~ In End_ ev /\ (s = 0 -> ev = [Usage])).
  { intro args. remember (List.length args) as n eqn:L. assert (L' : List.length args <= n) by lia. clear L. revert args L'.
    induction n as [|n IH]; intros [|a r] L' c o t ev s H; cbn in L'; try lia; cbn [parse] in H.
    1, 2: repeat (destruct (_ =? ""); [injection H as <- <-; split; [intros [I|[]]; discriminate|discriminate]|]); discriminate.
    destruct (_ || _); [injection H as <- <-; split; [intros [I|[]]; discriminate|reflexivity]|].
    destruct (_ || _); [destruct r as [|v r]; [injection H as <- <-; split; [intros [I|[]]; discriminate|discriminate]|cbn in L'; apply (IH r ltac:(lia) _ _ _ _ _ H)]|].
    destruct (_ || _); [destruct r as [|v r]; [injection H as <- <-; split; [intros [I|[]]; discriminate|discriminate]|cbn in L'; apply (IH r ltac:(lia) _ _ _ _ _ H)]|].
    destruct (_ || _); [destruct r as [|v r]; [injection H as <- <-; split; [intros [I|[]]; discriminate|discriminate]|cbn in L'; apply (IH r ltac:(lia) _ _ _ _ _ H)]|].
    injection H as <- <-. split; [intros [I|[I|[]]]; discriminate|discriminate]. }
  assert (Pf : forall c o x l ev e, perform calculate c o x l = (ev, e) ->
    (In End_ ev -> e = Exit 0 /\ exists front, ev = front ++ [End_] /\ ~ In End_ front) /\ (e = Exit 0 -> ev = [Usage] \/ In End_ ev)).
  { intros c o x l ev e H. destruct (perform_spec _ _ _ _ H) as [(-> & -> & _)|(-> & N)].
    - split; [|intros _; right; apply in_or_app; right; left; reflexivity]. intros _. split; [reflexivity|]. eexists. split; [reflexivity|].
      intros I. apply in_map_iff in I. destruct I as (y & I & _). discriminate.
    - split; [intros I; contradiction|discriminate]. }
  assert (Cp : forall x config out ev e, compute calculate file x config out = (ev, e) ->
    (In End_ ev -> e = Exit 0 /\ exists front, ev = front ++ [End_] /\ ~ In End_ front) /\ (e = Exit 0 -> ev = [Usage] \/ In End_ ev)).
  { intros x config out ev e H. unfold compute in H. destruct (file config); [|injection H as <- <-; split; [intros []|discriminate]].
    destruct (_ =? "true"); [|apply (Pf _ _ _ _ _ _ H)]. destruct (negb _); [|apply (Pf _ _ _ _ _ _ H)].
    injection H as <- <-. split; [intros [I|[]]; discriminate|discriminate]. }
  intros args ev e H. unfold main in H. destruct args as [|a args]; [injection H as <- <-; split; [intros [I|[]]; discriminate|auto]|].
  destruct (parse _ _ _ _) as [ev' s|c o t] eqn:P.
  - injection H as <- <-. destruct (Q _ _ _ _ _ _ P) as [Q1 Q2]. split; [intros I; contradiction|]. intros E. injection E as ->. auto.
  - destruct (_ =? "complex"); [apply (Cp _ _ _ _ _ H)|]. destruct (_ =? "real"); [apply (Cp _ _ _ _ _ H)|].
    injection H as <- <-. split; [intros [I|[]]; discriminate|discriminate].
Qed.

Lemma has_set : forall c k, has c k = true <-> set_ c k.
Proof. intros. unfold has, count, set_. destruct (get c k); cbn; split; eauto; try discriminate. intros (v & H); discriminate. Qed.
Lemma exist1 : forall c, existAtom1 c = true <-> described c atom1.
Proof.
  intros. unfold existAtom1, described, atom1. rewrite !andb_true_iff, !has_set, !Forall_cons_iff. intuition constructor.
Qed.
Lemma exist2 : forall c, existAtom2 c = true <-> described c atom2.
Proof.
  intros. unfold existAtom2, described, atom2. rewrite !andb_true_iff, !has_set, !Forall_cons_iff. intuition constructor.
Qed.
Lemma has_access : forall c k k', k <> k' -> has (access c k') k = has c k.
Proof.
  intros c k k' N. unfold has, count, access. destruct (get c k'); [reflexivity|]. rewrite get_put. apply String.eqb_neq in N. rewrite N. reflexivity.
Qed.

Ltac settle E := match type of E with
  | (true = true <-> ?P) => pose proof (proj1 E eq_refl); clear E
  | (false = true <-> ?P) => let N := fresh in assert (N : ~ P) by (let X := fresh in intro X; apply E in X; discriminate); clear E end.
Ltac nodup := repeat (constructor; [cbn [In]; intuition congruence|]); constructor.
Ltac refute := let X := fresh "X" in intro X; repeat match type of X with _ \/ _ => destruct X as [X|X] end; try discriminate; try contradiction; try assumption; try tauto.
Ltac finish := (split; [|split; [|split; [|split]]]); cbn [In app map];
  [split; [intro; split; [tauto|nodup]|intros [? _]] |split; [intro; split; [tauto|nodup]|intros [? _]] |split| nodup| refute];
  repeat match goal with
  | |- _ \/ _ -> _ => refute
  | H : _ \/ _ |- _ => destruct H as [H|H]; try discriminate; try contradiction
  end; try tauto; try discriminate.

(** C104: a run that ends well has calculated exactly what the configuration describes: each atom whose species and quantum numbers are given,
    once, and the pair if both are given and there is a distance.
    Partial: with "samebasis" both atoms have to be described (C104_samebasis_refuted). *)
Theorem C104_calculations_partial : forall x config out c ev, file config = Some c -> compute calculate file x config out = (ev, Exit 0) ->
  (get c "samebasis" = Some "true" -> (described c atom1 <-> described c atom2)) ->
  (described c atom1 <-> calculated ev 0) /\ (described c atom2 <-> calculated ev 1) /\
  (In (Typ 2) ev <-> described c atom1 /\ described c atom2 /\ set_ c "minR") /\ NoDup ev /\
  (In (Typ 3) ev -> get c "samebasis" = Some "true").
Proof.
  intros x config out c ev F H SB. unfold compute in H. rewrite F in H.
  assert (T : (text c "samebasis" =? "true") = true <-> get c "samebasis" = Some "true").
  { unfold text. destruct (get c "samebasis") as [v|]; rewrite String.eqb_eq; split; congruence. }
  assert (E1 := exist1 c). assert (E2 := exist2 c). assert (E3 := has_set c "minR").
  unfold calculated.
  destruct (text c "samebasis" =? "true") eqn:B.
  - rewrite !has_access in H by discriminate. assert (B' := proj1 T eq_refl). specialize (SB B'). destruct (negb _); [discriminate|].
    destruct (perform_spec _ _ _ _ H) as [(_ & -> & _)|(N & _)]; [|discriminate].
    destruct (existAtom1 c), (existAtom2 c), (has c "minR"); cbn [andb app map number] in *; settle E1; settle E2; settle E3; finish.
  - rewrite !has_access in H by discriminate.
    destruct (perform_spec _ _ _ _ H) as [(_ & -> & _)|(N & _)]; [|discriminate].
    destruct (existAtom1 c), (existAtom2 c), (has c "minR"); cbn [andb app map number] in *; settle E1; settle E2; settle E3; finish.
Qed.

(** C104 fails: with "samebasis" an atom that is described alone is not calculated; the run ends as if everything were fine. *)
Theorem C104_samebasis_refuted : forall x config out c, file config = Some c -> get c "samebasis" = Some "true" ->
  text c "species1" = text c "species2" -> ~ (described c atom1 /\ described c atom2) ->
  compute calculate file x config out = ([End_], Exit 0).
Proof.
  intros x config out c F B S N. unfold compute. rewrite F. unfold text at 1. rewrite B.
  assert (A : access c "samebasis" = c) by (unfold access; rewrite B; reflexivity). rewrite A, S, String.eqb_refl. cbn [negb String.eqb].
  change ("true" =? "true") with true. cbv iota.
  rewrite String.eqb_refl. cbn [negb]. rewrite <- exist1, <- exist2 in N. destruct (existAtom1 c), (existAtom2 c); try reflexivity. exfalso. auto.
Qed.

(** C104: different species cannot share a basis: nothing is calculated and the exit status is 1. *)
Theorem C104_species : forall x config out c, file config = Some c -> get c "samebasis" = Some "true" ->
  text c "species1" <> text c "species2" -> compute calculate file x config out = ([Message], Exit 1).
Proof.
  intros x config out c F B S. unfold compute. rewrite F. unfold text at 1. rewrite B.
  assert (A : access c "samebasis" = c) by (unfold access; rewrite B; reflexivity). rewrite A.
  apply String.eqb_neq in S. rewrite S. reflexivity.
Qed.
End Run.

(** *** Concrete runs *)
Definition demo : conf := [("j1","0.5"); ("l1","0"); ("m1","0.5"); ("n1","60"); ("samebasis","true"); ("species1","Rb"); ("species2","Rb")].
Definition demo2 : conf := [("j1","0.5"); ("j2","0.5"); ("l1","0"); ("l2","0"); ("m1","0.5"); ("m2","0.5"); ("minR","3"); ("n1","60"); ("n2","60"); ("species1","Rb"); ("species2","Cs")].
Definition disk (p : string) : option conf := if p =? "a" then Some demo else if p =? "b" then Some demo2 else None.
Definition fine (k : calculation) (c : conf) (o : string) (x : bool) : bool := true.
(** Only the first atom is described: nothing is calculated although the run ends well. *)
Example C104_samebasis_example : disk "a" = Some demo /\ described demo atom1 /\ main fine disk ["-c"; "a"; "-o"; "x"; "-t"; "real"] = ([End_], Exit 0).
Proof. split; [reflexivity|]. split; [|reflexivity]. repeat constructor; eexists; reflexivity. Qed.
(** A complete run: two atoms, then the pair. *)
Example C104_example : main fine disk ["--type"; "real"; "-o"; "x"; "-c"; "a"; "-c"; "b"] = ([Typ 0; Typ 1; Typ 2; End_], Exit 0) /\
  chosen [(Type_, true, "real"); (Output, false, "x"); (Config, false, "a"); (Config, false, "b")] Config "b" /\
  (get demo2 "samebasis" = Some "true" -> (described demo2 atom1 <-> described demo2 atom2)).
Proof.
  split; [reflexivity|]. split; [|discriminate].
  exists [(Type_, true, "real"); (Output, false, "x"); (Config, false, "a")], false, []. split; [reflexivity|]. intros b w [].
Qed.
(** A calculation that throws ends the run without ">>END". *)
Example C104_failed_example : main (fun k _ _ _ => match k with Second => false | _ => true end) disk ["-t"; "real"; "-o"; "x"; "-c"; "b"] = ([Typ 0; Typ 1], Aborted).
Proof. reflexivity. Qed.
Example C104_species_example : main fine (fun _ => Some (demo2 ++ [("samebasis", "true")])) ["-t"; "real"; "-o"; "x"; "-c"; "b"] = ([Message], Exit 1).
Proof. reflexivity. Qed.
Example C104_refused_example : main fine disk ["-c"; "a"; "-o"; "x"] = ([Message], Exit 1) /\ main fine disk ["-c"; "a"; "-x"] = ([Message; Usage], Exit 1) /\ ~ known "-x".
Proof. split; [reflexivity|]. split; [reflexivity|]. intros [H|[H|([] & [] & H)]]; discriminate. Qed.

Print Assumptions C104_options.
Print Assumptions C104_refused.
Print Assumptions C104_unknown.
Print Assumptions C104_end.
Print Assumptions C104_calculations_partial.
Print Assumptions C104_samebasis_refuted.
Print Assumptions C104_species.
