(** * Initial conditions: effect of the kernels *)
From Coq Require Import ZArith List Bool String Lia ZifyBool.
From Verif Require Import Num Exec ExecFacts Grid GridFacts HydroNum Kernels KernelFacts Hydro2D Hydro3D
  Mhd2D Mhd3D Mhd3DFacts Params Init.
Import ListNotations.
Local Open Scope Z_scope.

(** Value of variable [v] after the stores, [old] before. *)
Fixpoint assign {T} (ws : list (Z * T)) (v : Z) (old : T) : T :=
  match ws with [] => old | w :: ws => assign ws v (if fst w =? v then snd w else old) end.

(** Problems that assign the whole state with one kernel. *)
Definition one_kernel (p : problem) : Prop := p <> OrszagTang /\ p <> FieldLoop.

Section Facts.
Context {T : Type} {N : Num T}.
Implicit Types s : store T.

Lemma putl_cell a i j k (ws : list (Z * T)) v : forall s,
  putl s (map (fun w => (mkloc a i j k (fst w), snd w)) ws) (mkloc a i j k v) =
  assign ws v (s (mkloc a i j k v)).
Proof.
  induction ws as [|w ws IH]; intros s; [reflexivity|].
  cbn [map putl assign fst snd]. rewrite IH. f_equal. unfold upd.
  destruct (loc_eq_dec _ _) as [E|E]; destruct (fst w =? v) eqn:F; try reflexivity; exfalso.
  - inversion E. lia.
  - apply E. f_equal. lia.
Qed.

Lemma putl_cell_app a b i j k (ws us : list (Z * T)) v s : a <> b ->
  putl s (map (fun w => (mkloc a i j k (fst w), snd w)) ws ++ map (fun w => (mkloc b i j k (fst w), snd w)) us)
    (mkloc a i j k v) = assign ws v (s (mkloc a i j k v)).
Proof.
  intros Hab.
  assert (P : forall ws1 ws2 s, putl s (ws1 ++ ws2) = putl (putl s ws1) ws2)
    by (intros ws1; induction ws1; intros; simpl; auto).
  rewrite P, putl_other; [apply putl_cell|].
  rewrite map_map. intros Hin. apply in_map_iff in Hin. destruct Hin as (u & E & _). inversion E. congruence.
Qed.
Lemma putl_cell_app2 a b i j k (ws us : list (Z * T)) v s : a <> b ->
  putl s (map (fun w => (mkloc a i j k (fst w), snd w)) ws ++ map (fun w => (mkloc b i j k (fst w), snd w)) us)
    (mkloc b i j k v) = assign us v (s (mkloc b i j k v)).
Proof.
  intros Hab.
  assert (P : forall ws1 ws2 s, putl s (ws1 ++ ws2) = putl (putl s ws1) ws2)
    by (intros ws1; induction ws1; intros; simpl; auto).
  rewrite P, putl_cell. f_equal. apply putl_other.
  rewrite map_map. intros Hin. apply in_map_iff in Hin. destruct Hin as (u & E & _). inversion E. congruence.
Qed.

Definition only_U (a : arr) : bool := match a with A_U => true | _ => false end.
Definition U_and_G (a : arr) : bool := match a with A_U | A_G => true | _ => false end.
Definition only_pot (a : arr) : bool := match a with A_Pot => true | _ => false end.

Lemma own_store2 f c : own_foot (T := T) only_U (cell2of c) (store2 f c).
Proof.
  destruct c as [i j]. unfold own_foot, store2. apply foot_wrl; [|exact I].
  intros w Hw. apply in_map_iff in Hw. destruct Hw as (u & <- & _). split; reflexivity.
Qed.
Lemma own_store3 f c : own_foot (T := T) only_U c (store3 f c).
Proof.
  destruct c as [[i j] k]. unfold own_foot, store3. apply foot_wrl; [|exact I].
  intros w Hw. apply in_map_iff in Hw. destruct Hw as (u & <- & _). split; reflexivity.
Qed.

Variable L : mlib T.
Variable m : mesh.
Variable S : hset T.
Variable B : box T.
Variable rnd : nat -> Z -> Z -> Z -> T.
Variable inb : extents.

(** One kernel of stores. *)
Lemma store2_spec f s s' :
  exec inb s (map (store2 f) (c2 m)) s' ->
  (forall i j v, 0 <= i < isize m -> 0 <= j < jsize m ->
     s' (L2 A_U i j v) = assign (f i j) v (s (L2 A_U i j v))) /\
  (forall l, la l <> A_U -> s' l = s l).
Proof.
  intros E. destruct (cellwise2 _ _ _ only_U _ _ _ (own_store2 f) E) as [A F]. split.
  - intros i j v Hi Hj. unfold L2. rewrite A by auto. unfold store2. rewrite run_wrl. cbn [run].
    apply (putl_cell A_U i j 0).
  - intros l Hl. apply F. destruct (la l); try reflexivity. congruence.
Qed.
Lemma store3_spec f s s' :
  exec inb s (map (store3 f) (c3 m)) s' ->
  (forall i j k v, 0 <= i < isize m -> 0 <= j < jsize m -> 0 <= k < ksize m ->
     s' (mkloc A_U i j k v) = assign (f i j k) v (s (mkloc A_U i j k v))) /\
  (forall l, la l <> A_U -> s' l = s l).
Proof.
  intros E. destruct (cellwise3 _ _ _ _ only_U _ _ _ (own_store3 f) E) as [A F]. split.
  - intros i j k v Hi Hj Hk. rewrite A by auto. unfold store3. rewrite run_wrl. cbn [run].
    apply (putl_cell A_U i j k).
  - intros l Hl. apply F. destruct (la l); try reflexivity. congruence.
Qed.

(** Rayleigh-Taylor: the gravity field too. *)
Lemma own_rti2 P c : own_foot U_and_G (cell2of c) (rti_item2 L m S B P c).
Proof.
  destruct c as [i j]. unfold own_foot, rti_item2. apply foot_wrl; [|exact I].
  intros w Hw. apply in_app_or in Hw. destruct Hw as [Hw|Hw].
  - apply in_map_iff in Hw. destruct Hw as (u & <- & _). split; reflexivity.
  - destruct Hw as [<-|[<-|[]]]; split; reflexivity.
Qed.
Lemma own_rti3 P c : own_foot U_and_G c (rti_item3 L m S B P c).
Proof.
  destruct c as [[i j] k]. unfold own_foot, rti_item3. apply foot_wrl; [|exact I].
  intros w Hw. apply in_app_or in Hw. destruct Hw as [Hw|Hw].
  - apply in_map_iff in Hw. destruct Hw as (u & <- & _). split; reflexivity.
  - destruct Hw as [<-|[<-|[<-|[]]]]; split; reflexivity.
Qed.
Lemma rti2_spec P s s' :
  exec inb s (map (rti_item2 L m S B P) (c2 m)) s' ->
  (forall i j v, 0 <= i < isize m -> 0 <= j < jsize m ->
     s' (L2 A_U i j v) = assign (rti2 L S B P (px m S B i) (py m S B j)) v (s (L2 A_U i j v)) /\
     s' (L2 A_G i j v) = assign [(IX, r_gx P); (IY, r_gy P)] v (s (L2 A_G i j v))) /\
  (forall l, la l <> A_U -> la l <> A_G -> s' l = s l).
Proof.
  intros E. destruct (cellwise2 _ _ _ U_and_G _ _ _ (own_rti2 P) E) as [A F]. split.
  - intros i j v Hi Hj. unfold L2. rewrite !A by auto. unfold rti_item2. rewrite run_wrl. cbn [run].
    change [(L2 A_G i j IX, r_gx P); (L2 A_G i j IY, r_gy P)]
      with (map (fun w => (mkloc A_G i j 0 (fst w), snd w)) [(IX, r_gx P); (IY, r_gy P)]).
    split; [apply (putl_cell_app A_U A_G i j 0)|apply (putl_cell_app2 A_U A_G i j 0)]; discriminate.
  - intros l Hl Hl'. apply F. destruct (la l); try reflexivity; congruence.
Qed.
Lemma rti3_spec P s s' :
  exec inb s (map (rti_item3 L m S B P) (c3 m)) s' ->
  (forall i j k v, 0 <= i < isize m -> 0 <= j < jsize m -> 0 <= k < ksize m ->
     s' (mkloc A_U i j k v) =
       assign (rti3 L S B P (px m S B i) (py m S B j) (pz m S B k)) v (s (mkloc A_U i j k v)) /\
     s' (mkloc A_G i j k v) =
       assign [(IX, r_gx P); (IY, r_gy P); (IZ, r_gz P)] v (s (mkloc A_G i j k v))) /\
  (forall l, la l <> A_U -> la l <> A_G -> s' l = s l).
Proof.
  intros E. destruct (cellwise3 _ _ _ _ U_and_G _ _ _ (own_rti3 P) E) as [A F]. split.
  - intros i j k v Hi Hj Hk. rewrite !A by auto. unfold rti_item3. rewrite run_wrl. cbn [run].
    change [(mkloc A_G i j k IX, r_gx P); (mkloc A_G i j k IY, r_gy P); (mkloc A_G i j k IZ, r_gz P)]
      with (map (fun w => (mkloc A_G i j k (fst w), snd w)) [(IX, r_gx P); (IY, r_gy P); (IZ, r_gz P)]).
    split; [apply (putl_cell_app A_U A_G i j k)|apply (putl_cell_app2 A_U A_G i j k)]; discriminate.
  - intros l Hl Hl'. apply F. destruct (la l); try reflexivity; congruence.
Qed.

(** ** Hydrodynamics *)
Lemma execs_one (K : list (prog T)) s s' : execs inb s [K] s' -> exec inb s K s'.
Proof. intros E. inversion E as [|? ? s1 ? ? E1 E2]; subst. inversion E2; subst. auto. Qed.

Lemma init_hydro2_spec Q name s s' :
  execs inb s (init_hydro2 L m S B rnd Q name) s' ->
  (forall i j v, 0 <= i < isize m -> 0 <= j < jsize m ->
     s' (L2 A_U i j v) =
     assign (hydro_stores2 L m S B rnd Q (problem_hydro2 name) i j) v (s (L2 A_U i j v))) /\
  (problem_hydro2 name = RayleighTaylor ->
     forall i j, 0 <= i < isize m -> 0 <= j < jsize m ->
     s' (L2 A_G i j IX) = r_gx (p_rti Q) /\ s' (L2 A_G i j IY) = r_gy (p_rti Q)) /\
  (forall l, la l <> A_U -> (la l = A_G -> problem_hydro2 name <> RayleighTaylor) -> s' l = s l).
Proof.
  unfold init_hydro2. intros E. destruct (problem_hydro2 name) eqn:Ep;
  apply execs_one in E;
  [ apply store2_spec in E | apply store2_spec in E | apply store2_spec in E | apply store2_spec in E
  | apply store2_spec in E | apply store2_spec in E | apply rti2_spec in E
  | apply store2_spec in E | apply store2_spec in E | apply store2_spec in E | apply store2_spec in E ];
  destruct E as [A F]; (split; [|split]).
  all: try (intros X; discriminate X).
  all: try (intros; apply A; auto; fail).
  all: try (intros l Hl _; apply F; auto; fail).
  - intros _ i j Hi Hj. split; rewrite (proj2 (A i j _ Hi Hj)); reflexivity.
  - intros l Hl Hg. apply F; [exact Hl|intros X; exact (Hg X eq_refl)].
Qed.

Lemma init_hydro3_spec Q name s s' :
  execs inb s (init_hydro3 L m S B rnd Q name) s' ->
  (forall i j k v, 0 <= i < isize m -> 0 <= j < jsize m -> 0 <= k < ksize m ->
     s' (mkloc A_U i j k v) =
     assign (hydro_stores3 L m S B rnd Q (problem_hydro3 name) i j k) v (s (mkloc A_U i j k v))) /\
  (problem_hydro3 name = RayleighTaylor ->
     forall i j k, 0 <= i < isize m -> 0 <= j < jsize m -> 0 <= k < ksize m ->
     s' (mkloc A_G i j k IX) = r_gx (p_rti Q) /\ s' (mkloc A_G i j k IY) = r_gy (p_rti Q) /\
     s' (mkloc A_G i j k IZ) = r_gz (p_rti Q)) /\
  (forall l, la l <> A_U -> (la l = A_G -> problem_hydro3 name <> RayleighTaylor) -> s' l = s l).
Proof.
  unfold init_hydro3. intros E. destruct (problem_hydro3 name) eqn:Ep;
  apply execs_one in E;
  [ apply store3_spec in E | apply store3_spec in E | apply store3_spec in E | apply store3_spec in E
  | apply store3_spec in E | apply store3_spec in E | apply rti3_spec in E
  | apply store3_spec in E | apply store3_spec in E | apply store3_spec in E | apply store3_spec in E ];
  destruct E as [A F]; (split; [|split]).
  all: try (intros X; discriminate X).
  all: try (intros; apply A; auto; fail).
  all: try (intros l Hl _; apply F; auto; fail).
  - intros _ i j k Hi Hj Hk. repeat split; rewrite (proj2 (A i j k _ Hi Hj Hk)); reflexivity.
  - intros l Hl Hg. apply F; [exact Hl|intros X; exact (Hg X eq_refl)].
Qed.

(** ** MHD *)

(** Energies computed from values assigned before, in the same cell and its upper
    neighbours: a kernel that reads everything but the energy and writes the energy. *)
Definition energy_foot2 (c : Z * Z) (p : prog T) : Prop :=
  foot (fun l => lv l <> IP) (fun l => l = L2 A_U (fst c) (snd c) IP) nowhere p.
Definition energy_foot3 (c : Z * Z * Z) (p : prog T) : Prop :=
  foot (fun l => lv l <> IP) (fun l => l = mkloc A_U (fst (fst c)) (snd (fst c)) (snd c) IP) nowhere p.
Lemma energy2_spec (body : Z * Z -> prog T) s s' :
  (forall c, energy_foot2 c (body c)) ->
  exec inb s (map body (c2 m)) s' ->
  (forall i j, 0 <= i < isize m -> 0 <= j < jsize m ->
     s' (L2 A_U i j IP) = run (body (i, j)) s (L2 A_U i j IP)) /\
  (forall l, la l <> A_U \/ lv l <> IP -> s' l = s l).
Proof.
  intros Hf E.
  destruct (parallel_for_spec body (c2 m) (fun _ l => lv l <> IP)
    (fun c l => l = L2 A_U (fst c) (snd c) IP) inb) with (s := s) (s' := s') as [A F]; auto.
  - apply nodup_range2.
  - intros c _. apply Hf.
  - intros i j l _ _ Hne ->. split.
    + intros X. inversion X. apply Hne. destruct i, j; simpl in *; congruence.
    + intros X. apply X. reflexivity.
  - split.
    + intros i j Hi Hj. apply (A (i, j)); [apply in_range2; auto|reflexivity].
    + intros l Hl. apply F. intros c _ ->. destruct Hl as [X|X]; apply X; reflexivity.
Qed.
Lemma energy3_spec (body : Z * Z * Z -> prog T) s s' :
  (forall c, energy_foot3 c (body c)) ->
  exec inb s (map body (c3 m)) s' ->
  (forall i j k, 0 <= i < isize m -> 0 <= j < jsize m -> 0 <= k < ksize m ->
     s' (mkloc A_U i j k IP) = run (body (i, j, k)) s (mkloc A_U i j k IP)) /\
  (forall l, la l <> A_U \/ lv l <> IP -> s' l = s l).
Proof.
  intros Hf E.
  destruct (parallel_for_spec body (c3 m) (fun _ l => lv l <> IP)
    (fun c l => l = mkloc A_U (fst (fst c)) (snd (fst c)) (snd c) IP) inb) with (s := s) (s' := s') as [A F]; auto.
  - apply nodup_range3.
  - intros c _. apply Hf.
  - intros i j l _ _ Hne ->. split.
    + intros X. inversion X. apply Hne. destruct i as [[? ?] ?], j as [[? ?] ?]; simpl in *; congruence.
    + intros X. apply X. reflexivity.
  - split.
    + intros i j k Hi Hj Hk. apply (A (i, j, k)); [apply in_range3; auto|reflexivity].
    + intros l Hl. apply F. intros c _ ->. destruct Hl as [X|X]; apply X; reflexivity.
Qed.

Ltac efoot := intros c; destruct_all c; unfold energy_foot2, energy_foot3;
  match goal with |- context [if ?b then _ else _] => destruct b end; [|exact I];
  cbn [foot fst snd]; repeat (split; [discriminate|intro]); split; [reflexivity|exact I]
with destruct_all c := first [destruct c as [[? ?] ?] | destruct c as [? ?]].
Lemma ot_energy2_foot : forall c, energy_foot2 c (ot_energy2 L m S c).
Proof. unfold ot_energy2. efoot. Qed.
Lemma loop_energy2_foot : forall c, energy_foot2 c (loop_energy2 m S c).
Proof. unfold loop_energy2. efoot. Qed.
Lemma ot_energy3_foot : forall c, energy_foot3 c (ot_energy3 L m S c).
Proof. unfold ot_energy3. efoot. Qed.
Lemma loop_energy3_foot : forall c, energy_foot3 c (loop_energy3 m S c).
Proof. unfold loop_energy3. efoot. Qed.

Lemma execs_two (K1 K2 : list (prog T)) s s' :
  execs inb s [K1; K2] s' -> exists s1, exec inb s K1 s1 /\ exec inb s1 K2 s'.
Proof. intros E. inversion E as [|? ? s1 ? ? E1 E2]; subst. apply execs_one in E2. eauto. Qed.
Lemma execs_three (K1 K2 K3 : list (prog T)) s s' :
  execs inb s [K1; K2; K3] s' ->
  exists s1 s2, exec inb s K1 s1 /\ exec inb s1 K2 s2 /\ exec inb s2 K3 s'.
Proof. intros E. inversion E as [|? ? s1 ? ? E1 E2]; subst. apply execs_two in E2. destruct E2 as (s2 & ? & ?). eauto. Qed.

(** Total energies, as functions of the values assigned. *)
Definition ot_e2 (U : Z -> Z -> Z -> T) (i j : Z) : T :=
  (gamma0 S / (n2 * (nZ 4 * lasin L n1)) / gm1 S +
   nhalf * (sqr (U i j IU) / U i j ID + sqr (U i j IV) / U i j ID) +
   nhalf * (sqr ((U i j IA + U (i + 1)%Z j IA) / nZ 2) + sqr ((U i j IB + U i (j + 1)%Z IB) / nZ 2)))%num.
Definition loop_e2 (U : Z -> Z -> Z -> T) (i j : Z) : T :=
  (n1 / gm1 S + nhalf * (nquarter * sqr (U i j IA + U (i + 1)%Z j IA) +
                         nquarter * sqr (U i j IB + U i (j + 1)%Z IB)) +
   nhalf * (U i j IU * U i j IU + U i j IV * U i j IV) / U i j ID)%num.
Definition ot_e3 (U : Z -> Z -> Z -> Z -> T) (i j k : Z) : T :=
  (gamma0 S / (nZ 4 * lpi L) / gm1 S +
   nhalf * (sqr (U i j k IU) / U i j k ID + sqr (U i j k IV) / U i j k ID + sqr (U i j k IW) / U i j k ID) +
   nhalf * (sqr ((U i j k IA + U (i + 1)%Z j k IA) / nZ 2) +
            sqr ((U i j k IB + U i (j + 1)%Z k IB) / nZ 2) +
            sqr ((U i j k IC + U i j (k + 1)%Z IC) / nZ 2)))%num.
Definition loop_e3 (U : Z -> Z -> Z -> Z -> T) (i j k : Z) : T :=
  (n1 / gm1 S + nhalf * (nquarter * sqr (U i j k IA + U (i + 1)%Z j k IA) +
                         nquarter * sqr (U i j k IB + U i (j + 1)%Z k IB) +
                         nquarter * sqr (U i j k IC + U i j (k + 1)%Z IC)) +
   nhalf * (U i j k IU * U i j k IU + U i j k IV * U i j k IV + U i j k IW * U i j k IW) / U i j k ID)%num.

(** One-kernel problems. *)
Lemma init_mhd2_spec Q name s s' :
  one_kernel (problem_mhd name) ->
  execs inb s (init_mhd2 L m S B rnd Q name) s' ->
  (forall i j v, 0 <= i < isize m -> 0 <= j < jsize m ->
     s' (L2 A_U i j v) =
     assign (mhd_stores2 L m S B rnd Q (problem_mhd name) i j) v (s (L2 A_U i j v))) /\
  (forall l, la l <> A_U -> s' l = s l).
Proof.
  intros [H1 H2]. unfold init_mhd2.
  destruct (problem_mhd name); try congruence; intros E; apply execs_one in E; apply store2_spec in E; exact E.
Qed.
Lemma init_mhd3_spec Q name s s' :
  one_kernel (problem_mhd name) ->
  execs inb s (init_mhd3 L m S B rnd Q name) s' ->
  (forall i j k v, 0 <= i < isize m -> 0 <= j < jsize m -> 0 <= k < ksize m ->
     s' (mkloc A_U i j k v) =
     assign (mhd_stores3 L m S B rnd Q (problem_mhd name) i j k) v (s (mkloc A_U i j k v))) /\
  (forall l, la l <> A_U -> s' l = s l).
Proof.
  intros [H1 H2]. unfold init_mhd3.
  destruct (problem_mhd name); try congruence; intros E; apply execs_one in E; apply store3_spec in E; exact E.
Qed.

(** Orszag-Tang: the energy afterwards. *)
Definition ot_has2 (i j : Z) : bool := (i <? isize m - 1) && (j <? jsize m - 1).
Definition ot_has3 (i j k : Z) : bool := (i <? isize m - 1) && (j <? jsize m - 1) && (k <? ksize m - 1).
Lemma init_ot2_spec Q name s s' :
  problem_mhd name = OrszagTang ->
  execs inb s (init_mhd2 L m S B rnd Q name) s' ->
  (forall i j v, 0 <= i < isize m -> 0 <= j < jsize m -> v <> IP ->
     s' (L2 A_U i j v) = assign (mhd_stores2 L m S B rnd Q OrszagTang i j) v (s (L2 A_U i j v))) /\
  (forall i j, 0 <= i < isize m -> 0 <= j < jsize m ->
     s' (L2 A_U i j IP) = if ot_has2 i j then ot_e2 (fun i j v => s' (L2 A_U i j v)) i j
                          else s (L2 A_U i j IP)) /\
  (forall l, la l <> A_U -> s' l = s l).
Proof.
  unfold init_mhd2. intros -> E. apply execs_two in E. destruct E as (s1 & E1 & E2).
  apply store2_spec in E1. destruct E1 as [A1 F1].
  apply (energy2_spec _ _ _ ot_energy2_foot) in E2. destruct E2 as [A2 F2].
  repeat split.
  - intros i j v Hi Hj Hv. rewrite F2 by (right; exact Hv). auto.
  - intros i j Hi Hj. rewrite A2 by auto. unfold ot_energy2, ot_has2.
    destruct ((i <? isize m - 1) && (j <? jsize m - 1)) eqn:Eh.
    + cbn [run]. rewrite upd_same. unfold ot_e2. rewrite !F2 by (right; discriminate). reflexivity.
    + cbn [run]. rewrite A1 by auto. reflexivity.
  - intros l Hl. rewrite F2 by auto. auto.
Qed.
Lemma ot_vars3_noIP (P : ot_params T) x y z old : assign (ot_vars3 L S B P x y z) IP old = old.
Proof.
  unfold ot_vars3. destruct (o_dir P =? 2); [reflexivity|].
  destruct (o_dir P =? 0); [reflexivity|]. destruct (o_dir P =? 1); reflexivity.
Qed.
Lemma init_ot3_spec Q name s s' :
  problem_mhd name = OrszagTang ->
  execs inb s (init_mhd3 L m S B rnd Q name) s' ->
  (forall i j k v, 0 <= i < isize m -> 0 <= j < jsize m -> 0 <= k < ksize m -> v <> IP ->
     s' (mkloc A_U i j k v) = assign (mhd_stores3 L m S B rnd Q OrszagTang i j k) v (s (mkloc A_U i j k v))) /\
  (forall i j k, 0 <= i < isize m -> 0 <= j < jsize m -> 0 <= k < ksize m ->
     s' (mkloc A_U i j k IP) = if ot_has3 i j k then ot_e3 (fun i j k v => s' (mkloc A_U i j k v)) i j k
                               else s (mkloc A_U i j k IP)) /\
  (forall l, la l <> A_U -> s' l = s l).
Proof.
  unfold init_mhd3. intros -> E. apply execs_two in E. destruct E as (s1 & E1 & E2).
  apply store3_spec in E1. destruct E1 as [A1 F1].
  apply (energy3_spec _ _ _ ot_energy3_foot) in E2. destruct E2 as [A2 F2].
  repeat split.
  - intros i j k v Hi Hj Hk Hv. rewrite F2 by (right; exact Hv). auto.
  - intros i j k Hi Hj Hk. rewrite A2 by auto. unfold ot_energy3, ot_has3.
    destruct ((i <? isize m - 1) && (j <? jsize m - 1) && (k <? ksize m - 1)) eqn:Eh.
    + cbn [run]. rewrite upd_same. unfold ot_e3. rewrite !F2 by (right; discriminate). reflexivity.
    + cbn [run]. rewrite A1 by auto. apply ot_vars3_noIP.
  - intros l Hl. rewrite F2 by auto. auto.
Qed.

(** Field loop. *)
Definition loop_d (P : loop_params T) (x y : T) : T :=
  (if nsqrt (x * x + y * y) <? f_radius P then f_din P else n1)%num.
Definition loop_cost : T := (n2 / nsqrt (nZ 5))%num.
Definition loop_sint : T := (nsqrt (n1 - loop_cost * loop_cost))%num.
Definition loop_diag : T := (nsqrt (n1 * nZ (nx m * nx m + ny m * ny m + nz m * nz m)%Z))%num.
Definition loop_at (P : loop_params T) (i j : Z) : T := loop_A P (px m S B i) (py m S B j).
Definition loop_cell2 (P : loop_params T) (i j : Z) : list (Z * T) :=
  let d := loop_d P (px m S B i) (py m S B j) in
  [(ID, d); (IU, d * f_vflow P * loop_cost); (IV, d * f_vflow P * loop_sint);
   (IW, d * f_vflow P * nZ (nz m) / loop_diag);
   (IA, (loop_at P i (j + 1)%Z - loop_at P i j) / dy S);
   (IB, - (loop_at P (i + 1)%Z j - loop_at P i j) / dx S); (IC, n0)]%num.
(** The 3D potential has the third component only. *)
Definition loop_cell3 (P : loop_params T) (i j k : Z) : list (Z * T) :=
  let d := loop_d P (px m S B i) (py m S B j) in
  [(ID, d); (IU, d * f_vflow P * loop_cost); (IV, d * f_vflow P * loop_sint); (IW, d * f_vflow P);
   (IA, (loop_at P i (j + 1)%Z - loop_at P i j) / dy S - (n0 - n0) / dz S);
   (IB, (n0 - n0) / dz S - (loop_at P (i + 1)%Z j - loop_at P i j) / dx S);
   (IC, (n0 - n0) / dx S - (n0 - n0) / dy S)]%num.

Lemma own_loop_pot2 P c : own_foot only_pot (cell2of c) (loop_pot2 m S B P c).
Proof. destruct c as [i j]. unfold own_foot, loop_pot2. cbn [foot]. repeat split. Qed.
Lemma own_loop_vars2 P c : own_foot only_U (cell2of c) (loop_vars2 m S B P c).
Proof.
  destruct c as [i j]. unfold own_foot, loop_vars2. destruct (inner2 m i j); [|exact I].
  cbn [foot]. repeat (split; [discriminate|intro]). cbv zeta. apply foot_wrl; [|exact I].
  intros w Hw. repeat (destruct Hw as [<-|Hw]; [split; reflexivity|]). destruct Hw.
Qed.
Lemma own_loop_pot3 P c : own_foot only_pot c (loop_pot3 m S B P c).
Proof.
  destruct c as [[i j] k]. unfold own_foot, loop_pot3. apply foot_wrl; [|exact I].
  intros w Hw. apply in_app_or in Hw. destruct Hw as [Hw|Hw].
  - repeat (destruct Hw as [<-|Hw]; [split; reflexivity|]). destruct Hw.
  - destruct (_ <? _)%num; [|destruct Hw]. destruct Hw as [<-|[]]. split; reflexivity.
Qed.
Lemma own_loop_vars3 P c : own_foot only_U c (loop_vars3 m S B P c).
Proof.
  destruct c as [[i j] k]. unfold own_foot, loop_vars3. destruct (inner3 m i j k); [|exact I].
  cbn [foot]. repeat (split; [discriminate|intro]). cbv zeta. apply foot_wrl; [|exact I].
  intros w Hw. repeat (destruct Hw as [<-|Hw]; [split; reflexivity|]). destruct Hw.
Qed.

Lemma init_loop2_spec Q name s s' :
  problem_mhd name = FieldLoop -> 1 <= gw m ->
  execs inb s (init_mhd2 L m S B rnd Q name) s' ->
  (forall i j v, 0 <= i < isize m -> 0 <= j < jsize m -> v <> IP ->
     s' (L2 A_U i j v) = if inner2 m i j then assign (loop_cell2 (p_loop Q) i j) v (s (L2 A_U i j v))
                         else s (L2 A_U i j v)) /\
  (forall i j, 0 <= i < isize m -> 0 <= j < jsize m ->
     s' (L2 A_U i j IP) = if inner2 m i j then loop_e2 (fun i j v => s' (L2 A_U i j v)) i j
                          else s (L2 A_U i j IP)) /\
  (forall l, la l <> A_U -> la l <> A_Pot -> s' l = s l).
Proof.
  unfold init_mhd2. intros -> Hg E. apply execs_three in E. destruct E as (s1 & s2 & E1 & E2 & E3).
  destruct (cellwise2 _ _ _ only_pot _ _ _ (own_loop_pot2 (p_loop Q)) E1) as [A1 F1].
  destruct (cellwise2 _ _ _ only_U _ _ _ (own_loop_vars2 (p_loop Q)) E2) as [A2 F2].
  apply (energy2_spec _ _ _ loop_energy2_foot) in E3. destruct E3 as [A3 F3].
  assert (Pot : forall i j, 0 <= i < isize m -> 0 <= j < jsize m -> s1 (L2 A_Pot i j 0) = loop_at (p_loop Q) i j).
  { intros i j Hi Hj. unfold L2. rewrite A1 by auto. unfold loop_pot2. cbn [run]. apply upd_same. }
  assert (V : forall i j v, 0 <= i < isize m -> 0 <= j < jsize m ->
    s2 (L2 A_U i j v) = if inner2 m i j then assign (loop_cell2 (p_loop Q) i j) v (s (L2 A_U i j v))
                        else s (L2 A_U i j v)).
  { intros i j v Hi Hj. unfold L2. rewrite A2 by auto. unfold loop_vars2.
    destruct (inner2 m i j) eqn:Ei.
    - cbn [run]. unfold inner2 in Ei. rewrite !Pot by lia. rewrite run_wrl. cbn [run].
      etransitivity; [apply (putl_cell A_U i j 0 (loop_cell2 (p_loop Q) i j))|].
      f_equal. apply F1. reflexivity.
    - cbn [run]. apply F1. reflexivity. }
  repeat split.
  - intros i j v Hi Hj Hv. rewrite F3 by (right; exact Hv). auto.
  - intros i j Hi Hj. rewrite A3 by auto. unfold loop_energy2.
    pose proof (V i j IP Hi Hj) as VP.
    destruct (inner2 m i j) eqn:Ei.
    + cbn [run]. rewrite upd_same. unfold loop_e2. rewrite !F3 by (right; discriminate). reflexivity.
    + cbn [run]. exact VP.
  - intros l Hl Hl'. rewrite F3 by auto. rewrite F2, F1; auto; destruct (la l); auto; congruence.
Qed.

Lemma init_loop3_spec Q name s s' :
  problem_mhd name = FieldLoop -> 1 <= gw m ->
  execs inb s (init_mhd3 L m S B rnd Q name) s' ->
  (forall i j k v, 0 <= i < isize m -> 0 <= j < jsize m -> 0 <= k < ksize m -> v <> IP ->
     s' (mkloc A_U i j k v) = if inner3 m i j k
       then assign (loop_cell3 (p_loop Q) i j k) v (s (mkloc A_U i j k v))
       else s (mkloc A_U i j k v)) /\
  (forall i j k, 0 <= i < isize m -> 0 <= j < jsize m -> 0 <= k < ksize m ->
     s' (mkloc A_U i j k IP) = if inner3 m i j k
       then loop_e3 (fun i j k v => s' (mkloc A_U i j k v)) i j k
       else s (mkloc A_U i j k IP)) /\
  (forall l, la l <> A_U -> la l <> A_Pot -> s' l = s l).
Proof.
  unfold init_mhd3. intros -> Hg E. apply execs_three in E. destruct E as (s1 & s2 & E1 & E2 & E3).
  destruct (cellwise3 _ _ _ _ only_pot _ _ _ (own_loop_pot3 (p_loop Q)) E1) as [A1 F1].
  destruct (cellwise3 _ _ _ _ only_U _ _ _ (own_loop_vars3 (p_loop Q)) E2) as [A2 F2].
  apply (energy3_spec _ _ _ loop_energy3_foot) in E3. destruct E3 as [A3 F3].
  assert (Pot : forall i j k, 0 <= i < isize m -> 0 <= j < jsize m -> 0 <= k < ksize m ->
    s1 (mkloc A_Pot i j k 0) = n0 /\ s1 (mkloc A_Pot i j k 1) = n0 /\
    s1 (mkloc A_Pot i j k 2) = loop_at (p_loop Q) i j).
  { intros i j k Hi Hj Hk. rewrite !A1 by auto. unfold loop_pot3. rewrite run_wrl. cbn [run].
    unfold loop_at, loop_A.
    set (ws := _ ++ _).
    assert (Hw : ws = map (fun w => (mkloc A_Pot i j k (fst w), snd w))
      ([(0, n0); (1, n0); (2, n0)] ++
       (if (nsqrt (px m S B i * px m S B i + py m S B j * py m S B j) <? f_radius (p_loop Q))%num
        then [(2, (f_ampl (p_loop Q) * (f_radius (p_loop Q) -
               nsqrt (px m S B i * px m S B i + py m S B j * py m S B j)))%num)] else []))).
    { unfold ws. destruct (_ <? _)%num; reflexivity. }
    rewrite Hw, !putl_cell. cbv zeta. destruct (_ <? _)%num; repeat split. }
  assert (V : forall i j k v, 0 <= i < isize m -> 0 <= j < jsize m -> 0 <= k < ksize m ->
    s2 (mkloc A_U i j k v) = if inner3 m i j k
      then assign (loop_cell3 (p_loop Q) i j k) v (s (mkloc A_U i j k v)) else s (mkloc A_U i j k v)).
  { intros i j k v Hi Hj Hk. rewrite A2 by auto. unfold loop_vars3.
    destruct (inner3 m i j k) eqn:Ei.
    - cbn [run]. unfold inner3 in Ei.
      repeat match goal with
      | |- context [s1 (mkloc A_Pot ?a ?b ?c 0)] => rewrite (proj1 (Pot a b c ltac:(lia) ltac:(lia) ltac:(lia)))
      | |- context [s1 (mkloc A_Pot ?a ?b ?c 1)] => rewrite (proj1 (proj2 (Pot a b c ltac:(lia) ltac:(lia) ltac:(lia))))
      | |- context [s1 (mkloc A_Pot ?a ?b ?c 2)] => rewrite (proj2 (proj2 (Pot a b c ltac:(lia) ltac:(lia) ltac:(lia))))
      end.
      rewrite run_wrl. cbn [run].
      etransitivity; [apply (putl_cell A_U i j k (loop_cell3 (p_loop Q) i j k))|].
      f_equal. apply F1. reflexivity.
    - cbn [run]. apply F1. reflexivity. }
  repeat split.
  - intros i j k v Hi Hj Hk Hv. rewrite F3 by (right; exact Hv). auto.
  - intros i j k Hi Hj Hk. rewrite A3 by auto. unfold loop_energy3.
    pose proof (V i j k IP Hi Hj Hk) as VP.
    destruct (inner3 m i j k) eqn:Ei.
    + cbn [run]. rewrite upd_same. unfold loop_e3. rewrite !F3 by (right; discriminate). reflexivity.
    + cbn [run]. exact VP.
  - intros l Hl Hl'. rewrite F3 by auto. rewrite F2, F1; auto; destruct (la l); auto; congruence.
Qed.

End Facts.
