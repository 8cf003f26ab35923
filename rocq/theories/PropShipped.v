(** * C57 for the parameter files of the repository *)
From Coq Require Import Ascii String ZArith List Bool Lia Floats.SpecFloat.
Import ListNotations.
From Verif Require Import Num Exec Grid Boundaries BoundariesSpec HydroNum Config Params Binary64 Binary64Valid ProblemParams Program PropProgram Shipped.
Local Open Scope Z_scope.

(** ** Deciding the hypotheses *)
Definition enoughb (k : kind) (n g : Z) : bool :=
  ((1 <=? n) && (match k with Absorbing => true | _ => false end || (g <=? n)))%bool.
Definition wide2b (m : mesh) : bool :=
  ((0 <? gw m) && (0 <=? nbvar m) && enoughb (kind_of (bc m XMIN)) (nx m) (gw m) && enoughb (kind_of (bc m XMAX)) (nx m) (gw m) &&
   enoughb (kind_of (bc m YMIN)) (ny m) (gw m) && enoughb (kind_of (bc m YMAX)) (ny m) (gw m))%bool.
Definition wide3b (m : mesh) : bool :=
  (wide2b m && enoughb (kind_of (bc m ZMIN)) (nz m) (gw m) && enoughb (kind_of (bc m ZMAX)) (nz m) (gw m))%bool.
Lemma enoughb_ok k n g : enoughb k n g = true -> enough k n g.
Proof.
  unfold enoughb, enough. intros [H1 H2]%andb_prop. apply Z.leb_le in H1. split; [exact H1|].
  apply orb_true_iff in H2. destruct H2 as [H2|H2]; [left; destruct k; congruence|right; apply Z.leb_le; exact H2].
Qed.
Lemma wide2b_ok m : wide2b m = true -> wide2 m.
Proof.
  unfold wide2b, wide2. rewrite !andb_true_iff. intros (((((A & B) & C) & D) & F) & G).
  apply Z.ltb_lt in A. apply Z.leb_le in B. auto 10 using enoughb_ok.
Qed.
Lemma wide3b_ok m : wide3b m = true -> wide3 m.
Proof. unfold wide3b, wide3. rewrite !andb_true_iff. intros ((A & B) & C). auto using enoughb_ok, wide2b_ok. Qed.

Definition sf_eqb (x y : b32) : bool :=
  match x, y with
  | S754_zero a, S754_zero b => Bool.eqb a b
  | S754_finite a m e, S754_finite b m' e' => (Bool.eqb a b && Pos.eqb m m' && Z.eqb e e')%bool
  | _, _ => false
  end.
Lemma sf_eqb_ok x y : sf_eqb x y = true -> x = y.
Proof.
  destruct x, y; cbn; try discriminate; rewrite ?andb_true_iff.
  - intros ->%Bool.eqb_prop. reflexivity.
  - intros [[->%Bool.eqb_prop ->%Pos.eqb_eq] ->%Z.eqb_eq]. reflexivity.
Qed.
Definition slopeb (c : cmap) (l : list Z) : bool :=
  existsb (fun n => sf_eqb (get_float c (lit "hydro") (lit "slope_type") (dflt 1 1)) (dflt n 1)) l.
Lemma slopeb_ok c l : slopeb c l = true -> slope_among c l.
Proof. unfold slopeb. rewrite existsb_exists. intros (n & Hn & H). exists n. split; [exact Hn|apply sf_eqb_ok; exact H]. Qed.

Definition orderb (c : cmap) (lo hi : string) : bool :=
  let a := widen (get_float c (lit "mesh") (lit lo) (dflt 0 1)) in let b := widen (get_float c (lit "mesh") (lit hi) (dflt 1 1)) in
  (SpecFloat.valid_binary 53 1024 a && SpecFloat.valid_binary 53 1024 b && nltb (Num := Fnum) a b)%bool.
Lemma orderb_ok c lo hi : orderb c lo hi = true -> in_order c lo hi.
Proof.
  unfold orderb, in_order, dbl. rewrite !andb_true_iff. intros [[A B] C].
  change (nltb (Num := Vnum) ?x ?y) with (nltb (Num := Fnum) (sf x) (sf y)). rewrite !sf_of_sf by assumption. exact C.
Qed.

Definition riemannb (r : rsolver) (l : list rsolver) : bool :=
  existsb (fun x => match r, x with R_APPROX, R_APPROX | R_HLL, R_HLL | R_HLLC, R_HLLC | R_HLLD, R_HLLD | R_LLF, R_LLF => true | _, _ => false end) l.
Lemma riemannb_ok r l : riemannb r l = true -> In r l.
Proof. unfold riemannb. rewrite existsb_exists. intros (x & Hx & H). destruct r, x; try discriminate; exact Hx. Qed.

Definition acceptableb (c : cmap) : bool :=
  let m := mesh_setting c in
  match main_creates c with
  | Some (HydroMuscl TWO_D) => (wide2b m && slopeb c [0; 1; 2] && riemannb (riemann_setting c) [R_APPROX; R_HLL; R_HLLC; R_LLF])%bool
  | Some (HydroMuscl THREE_D) => (wide3b m && slopeb c [0; 1; 2] && riemannb (riemann_setting c) [R_APPROX; R_HLLC; R_LLF])%bool
  | Some (MHDMuscl TWO_D) => (wide2b m && slopeb c [1; 2] && riemannb (riemann_setting c) [R_HLLD; R_HLL; R_LLF])%bool
  | Some (MHDMuscl THREE_D) => (wide3b m && slopeb c [1; 2] && riemannb (riemann_setting c) [R_HLLD; R_HLL; R_LLF])%bool
  | None => false
  end.
Definition settledb (c : cmap) : bool :=
  (match main_creates c with
   | Some (HydroMuscl TWO_D) => negb (version_setting c =? 2)
   | Some (HydroMuscl THREE_D) => negb (version_setting c =? 2) && orderb c "zmin" "zmax"
   | Some (MHDMuscl TWO_D) => version_setting c =? 0
   | Some (MHDMuscl THREE_D) => (version_setting c =? 0) && orderb c "zmin" "zmax"
   | None => false
   end && orderb c "xmin" "xmax" && orderb c "ymin" "ymax")%bool.
Definition completeb (c : cmap) : bool :=
  (negb (int_setting c "run" "nlog" 10 =? 0) && negb (flag c "run" "restart_enabled" false) &&
   (negb (String.eqb (the_problem c) "rayleigh_taylor") || flag c "gravity" "enabled" false) &&
   (negb (String.eqb (the_problem c) "brio-wu") || ((0 <=? int_setting c "brio-wu" "direction" 0) && (int_setting c "brio-wu" "direction" 0 <? 3))))%bool.

Lemma acceptableb_ok c : acceptableb c = true -> acceptable c.
Proof.
  unfold acceptableb, acceptable. cbv zeta. destruct (main_creates c) as [[[]|[]]|]; try discriminate; rewrite !andb_true_iff; intros [[A B] C];
  apply riemannb_ok in C; cbn [In] in C.
  - split; [apply wide2b_ok; exact A|]. split; [apply slopeb_ok; exact B|]. intuition congruence.
  - split; [apply wide3b_ok; exact A|]. split; [apply slopeb_ok; exact B|]. intuition congruence.
  - split; [apply wide2b_ok; exact A|]. split; [apply slopeb_ok; exact B|]. exact C.
  - split; [apply wide3b_ok; exact A|]. split; [exact C|]. intros _. apply slopeb_ok; exact B.
Qed.
Lemma usableb_ok c : acceptableb c = true -> settledb c = true -> usable c.
Proof.
  intros HA%acceptableb_ok HS. unfold settledb in HS. unfold acceptable in HA. unfold usable. cbv zeta in *.
  destruct (main_creates c) as [[[]|[]]|]; try contradiction; rewrite !andb_true_iff in HS; decompose [and] HS; decompose [and] HA;
  repeat match goal with H : negb (_ =? _) = true |- _ => apply negb_true_iff, Z.eqb_neq in H | H : (_ =? _) = true |- _ => apply Z.eqb_eq in H
    | H : orderb _ _ _ = true |- _ => apply orderb_ok in H end; repeat (split; [assumption|]); assumption.
Qed.
Lemma completeb_ok c : completeb c = true -> complete c.
Proof.
  unfold completeb, complete. rewrite !andb_true_iff, !orb_true_iff, !negb_true_iff. intros (((A & B) & C) & D).
  split; [apply Z.eqb_neq; exact A|]. split; [exact B|]. split.
  - intros E. destruct C as [C|C]; [|exact C]. rewrite E in C. discriminate.
  - intros E. destruct D as [D|D]; [rewrite E in D; discriminate|]. rewrite andb_true_iff in D. lia.
Qed.

(** Every file of /repo/settings: all accesses inside the arrays, the run ends. *)
Theorem C57_shipped_files_run :
  forall E file, In file shipped ->
  exists p, main_creates (serial_parameters (Some file)) = Some p /\ all_safe (N := Vnum) dbl E (serial_parameters (Some file)) p /\
  exists out, euler_kokkos (H := Vnum) dbl E file out.
Proof.
  assert (A : forallb (fun f => let c := serial_parameters (Some f) in acceptableb c && completeb c && match main_creates c with Some _ => true | None => false end)%bool shipped = true)
    by (vm_compute; reflexivity).
  intros E file Hin. rewrite forallb_forall in A. specialize (A _ Hin). cbv zeta in A. unfold euler_kokkos.
  rewrite !andb_true_iff in A. destruct A as [[A1 A2] A3].
  destruct (main_creates (serial_parameters (Some file))) as [p|] eqn:Hp; [|discriminate]. exists p. split; [reflexivity|].
  apply C57_completes; auto using acceptableb_ok, completeb_ok.
Qed.
Print Assumptions C57_shipped_files_run.

(** 21 of the 27 have exactly one output; the others use versions 1 and 2 of the MHD scheme,
    which add with atomic operations. *)
Theorem C57_shipped_files_one_output :
  forall E file, In file shipped -> settledb (serial_parameters (Some file)) = true ->
  exists out, euler_kokkos (H := Vnum) dbl E file out /\ forall out', euler_kokkos (H := Vnum) dbl E file out' -> out' = out.
Proof.
  assert (A : forallb (fun f => let c := serial_parameters (Some f) in acceptableb c && completeb c && match main_creates c with Some _ => true | None => false end)%bool shipped = true)
    by (vm_compute; reflexivity).
  intros E file Hin HS.
  rewrite forallb_forall in A. specialize (A _ Hin). cbv zeta in A. unfold euler_kokkos.
  rewrite !andb_true_iff in A. destruct A as [[A1 A2] A3].
  destruct (main_creates (serial_parameters (Some file))) as [p|] eqn:Hp; [|discriminate].
  destruct (C57_one_output E (serial_parameters (Some file)) p) as [_ H]; auto using usableb_ok, completeb_ok.
Qed.
Print Assumptions C57_shipped_files_one_output.

Example C57_shipped_count : (List.length (filter (fun f => settledb (serial_parameters (Some f))) shipped), List.length shipped) = (21%nat, 27%nat).
Proof. vm_compute. reflexivity. Qed.
Example C57_shipped_others : map (fun f => the_problem (serial_parameters (Some f)))
  (filter (fun f => negb (settledb (serial_parameters (Some f)))) shipped) =
  ["blast"; "brio-wu"; "brio-wu"; "brio-wu"; "brio-wu"; "brio-wu"]%string.
Proof. vm_compute. reflexivity. Qed.

(** The parameter files of the problem "four_quadrant" meet the hypotheses of
    [C58_initial_state] and select configuration 3. *)
Example C58_shipped :
  (let c := serial_parameters (Some ini_test_four_quadrant_2D) in
   (main_creates c, the_problem c, int_setting c "riemann2d" "config_number" 0)) = (Some (HydroMuscl TWO_D), "four_quadrant"%string, 2%Z) /\
  (let c := serial_parameters (Some ini_test_four_quadrant_3D) in
   (main_creates c, the_problem c, int_setting c "riemann2d" "config_number" 0)) = (Some (HydroMuscl THREE_D), "four_quadrant"%string, 2%Z).
Proof. vm_compute. split; reflexivity. Qed.
