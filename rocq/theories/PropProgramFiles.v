(** * C57: names of the files written by the program *)
From Coq Require Import Ascii String ZArith List Bool Lia ZifyBool.
Import ListNotations.
From Verif Require Import Init.
From Verif Require Import Num Exec Grid HydroNum Kernels Driver Config ConfigSpec Params ProblemParams Vtk VtkSpec PropDriver PropVtk
  HydroMachine MhdMachine Mhd3DMachine Program PropProgram Binary64 Binary64Valid Shipped PropShipped.
Local Open Scope Z_scope.
Local Notation length := List.length.

Lemma padded_length w n : w <= Z.of_nat (length (padded w n)).
Proof. unfold padded. cbv zeta. rewrite app_length, repeat_length. lia. Qed.

(** Name of the image with number [k]: directory, prefix and at least seven digits. *)
Definition image_name (dir prefix : text) (k : Z) (name : text) : Prop :=
  exists digits, name = dir ++ lit "/" ++ prefix ++ lit "_" ++ digits ++ lit ".vti" /\
    Forall decimal digits /\ dvalue digits = k /\ (7 <= length digits)%nat.

Lemma file_name_image c k : 0 <= k < 2 ^ 31 ->
  image_name (get_string c (lit "output") (lit "outputDir") (lit "./")) (get_string c (lit "output") (lit "outputPrefix") (lit "output")) k
    (file_name (read_outconf c) [] k).
Proof.
  intros Hk. exists (padded 7 k). destruct (padded_value 7 k ltac:(lia)) as (V & D). pose proof (padded_length 7 k).
  split; [reflexivity|]. split; [exact D|]. split; [exact V|]. lia.
Qed.

Lemma numbers_nth {D : Type} {T : Type} (l : list (file (T := T) (D := D))) k f :
  map f_number l = map (fun k => 0 + Z.of_nat k)%Z (seq 0 (length l)) -> nth_error l k = Some f -> f_number f = Z.of_nat k.
Proof.
  intros E Hk.
  assert (A : nth_error (map f_number l) k = Some (f_number f)) by (rewrite nth_error_map, Hk; reflexivity).
  rewrite E in A. assert (Hl : (k < length l)%nat) by (apply nth_error_Some; congruence).
  rewrite nth_error_map in A. rewrite (nth_error_nth' (seq 0 (length l)) 0%nat) in A by (rewrite seq_length; exact Hl).
  rewrite seq_nth in A by exact Hl. cbn in A. injection A as <-. reflexivity.
Qed.

Lemma forall2_length {A B} (R : A -> B -> Prop) l l' : Forall2 R l l' -> length l = length l'.
Proof. induction 1; cbn [length]; congruence. Qed.

(** The files are numbered from zero without gap, whatever the solver and its version; at
    least the first and the last state are saved, unless output is switched off. *)
Theorem C57_image_files :
  forall (T : Type) (N : Num T) (cv : b32 -> T) E c out, program_writes cv E c out ->
  (get_bool c (lit "output") (lit "vtk_enabled") true = true -> to_int (get_integer c (lit "run") (lit "noutput") 100) <> 0 ->
   (2 <= length out)%nat /\
   forall k name t, nth_error out k = Some (name, t) -> Z.of_nat k < 2 ^ 31 ->
     image_name (get_string c (lit "output") (lit "outputDir") (lit "./"))
                (get_string c (lit "output") (lit "outputPrefix") (lit "output")) (Z.of_nat k) name) /\
  (get_bool c (lit "output") (lit "vtk_enabled") true = false \/ to_int (get_integer c (lit "run") (lit "noutput") 100) = 0 -> out = []).
Proof.
  intros T N cv E c out [_ HW].
  assert (K : forall M D (P : machine T M D) t0 m0 s tr s' (im : file -> text * option text),
    start t0 0 m0 s -> main P (the_config cv c) s tr s' -> (forall f, fst (im f) = file_name (read_outconf c) [] (f_number f)) ->
    out = (if vtk_enabled c then map im (s_files s') else []) ->
    (get_bool c (lit "output") (lit "vtk_enabled") true = true -> to_int (get_integer c (lit "run") (lit "noutput") 100) <> 0 ->
     (2 <= length out)%nat /\
     forall k name t, nth_error out k = Some (name, t) -> Z.of_nat k < 2 ^ 31 ->
       image_name (get_string c (lit "output") (lit "outputDir") (lit "./"))
                  (get_string c (lit "output") (lit "outputPrefix") (lit "output")) (Z.of_nat k) name) /\
    (get_bool c (lit "output") (lit "vtk_enabled") true = false \/ to_int (get_integer c (lit "run") (lit "noutput") 100) = 0 -> out = [])).
  { intros M D P t0 m0 s tr s' im HS HM HI ->. unfold vtk_enabled, flag.
    split.
    - intros -> Hn. destruct (C15_files _ _ _ _ P (the_config cv c) t0 0 m0 s tr s' HS HM Hn) as (A & (keep & first & last_ & _ & _ & _ & _ & _ & _ & _ & F) & _).
      split.
      + rewrite map_length, (forall2_length _ _ _ F). cbn [length]. rewrite app_length. cbn [length]. lia.
      + intros k name t Hk Hb. rewrite nth_error_map in Hk. destruct (nth_error (s_files s') k) as [f|] eqn:Ef; [|discriminate].
        cbn [option_map] in Hk. injection Hk as Hk. pose proof (HI f) as HN. rewrite Hk in HN. cbn [fst] in HN. subst name.
        rewrite (numbers_nth _ k f A Ef). apply file_name_image. lia.
    - intros [-> | H0]; [reflexivity|].
      rewrite (C15_disabled_no_file _ _ _ _ P (the_config cv c) t0 0 m0 s tr s' HS HM H0). destruct (get_bool _ _ _ _); reflexivity. }
  destruct (main_creates c) as [[[|]|[|]]|]; [| | | |contradiction];
    destruct HW as (s' & (s0 & s1 & s & tr & _ & _ & (d & _ & ->) & HM) & Eo);
    refine (K _ _ _ _ _ _ tr s' _ (started _ _ _) HM _ Eo); intros f; reflexivity.
Qed.
Print Assumptions C57_image_files.

(** The names of different numbers are different, so no image of a run replaces another. *)
Theorem C57_no_image_lost :
  forall (T : Type) (N : Num T) (cv : b32 -> T) E c out, program_writes cv E c out -> Z.of_nat (length out) < 2 ^ 31 ->
  NoDup (map fst out).
Proof.
  intros T N cv E c out HW HL. destruct (C57_image_files T N cv E c out HW) as [A B].
  destruct (get_bool c (lit "output") (lit "vtk_enabled") true) eqn:Eb; [|rewrite B by (left; reflexivity); constructor].
  destruct (Z.eq_dec (to_int (get_integer c (lit "run") (lit "noutput") 100)) 0) as [E0|E0]; [rewrite B by (right; exact E0); constructor|].
  destruct (A eq_refl E0) as [_ H]. apply NoDup_nth_error. intros i j Hi He. rewrite map_length in Hi.
  destruct (nth_error out i) as [[n1 t1]|] eqn:E1; [|apply nth_error_None in E1; lia].
  rewrite !nth_error_map, E1 in He. destruct (nth_error out j) as [[n2 t2]|] eqn:E2; [|discriminate].
  cbn [option_map fst] in He. injection He as ->.
  assert (Hj : (j < length out)%nat) by (apply nth_error_Some; congruence).
  destruct (H i n2 t1 E1 ltac:(lia)) as (d1 & N1 & D1 & V1 & _). destruct (H j n2 t2 E2 ltac:(lia)) as (d2 & N2 & D2 & V2 & _).
  rewrite N1 in N2. do 4 apply app_inv_head in N2. change (lit ".vti") with ("."%char :: lit "vti") in N2.
  apply split_decimal in N2; [|assumption|assumption|unfold decimal; cbn; lia|unfold decimal; cbn; lia].
  destruct N2 as [-> _]. lia.
Qed.
Print Assumptions C57_no_image_lost.

(** A parameter file of the repository: the run ends and writes at least two images, the
    first of which is test_four_quadrant_2D_0000000.vti. *)
Example C57_image_files_case : forall E, exists out,
  euler_kokkos (H := Vnum) dbl E ini_test_four_quadrant_2D out /\ (2 <= length out)%nat /\
  (forall k name t, nth_error out k = Some (name, t) -> Z.of_nat k < 2 ^ 31 ->
     image_name (lit "./") (lit "test_four_quadrant_2D") (Z.of_nat k) name) /\
  image_name (lit "./") (lit "test_four_quadrant_2D") 0 (lit ".//test_four_quadrant_2D_0000000.vti").
Proof.
  intros E.
  assert (Hin : In ini_test_four_quadrant_2D shipped).
  { unfold shipped. repeat (first [left; reflexivity | right]). }
  destruct (C57_shipped_files_run E _ Hin) as (p & _ & _ & out & HW). exists out. split; [exact HW|].
  unfold euler_kokkos in HW. destruct (C57_image_files _ _ _ _ _ _ HW) as [A _].
  assert (E1 : get_bool (serial_parameters (Some ini_test_four_quadrant_2D)) (lit "output") (lit "vtk_enabled") true = true) by (vm_compute; reflexivity).
  assert (E2 : to_int (get_integer (serial_parameters (Some ini_test_four_quadrant_2D)) (lit "run") (lit "noutput") 100) = 10) by (vm_compute; reflexivity).
  assert (E3 : get_string (serial_parameters (Some ini_test_four_quadrant_2D)) (lit "output") (lit "outputDir") (lit "./") = lit "./") by (vm_compute; reflexivity).
  assert (E4 : get_string (serial_parameters (Some ini_test_four_quadrant_2D)) (lit "output") (lit "outputPrefix") (lit "output") = lit "test_four_quadrant_2D") by (vm_compute; reflexivity).
  rewrite E1, E2, E3, E4 in A. destruct (A eq_refl ltac:(discriminate)) as [A1 A2]. split; [exact A1|]. split; [exact A2|].
  exists (lit "0000000"). split; [reflexivity|]. split; [repeat constructor; cbn; lia|]. split; [reflexivity|]. cbn. lia.
Qed.
