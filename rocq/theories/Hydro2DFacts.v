(** * The 2D kernels compute the scheme, under every schedule *)
From Coq Require Import ZArith List Bool Lia ZifyBool.
Import ListNotations.
From Verif Require Import Num Exec ExecFacts Grid GridFacts Boundaries BoundariesSpec
  BoundariesFacts BoundariesFill BoundariesNarrow HydroNum Kernels KernelFacts Hydro2D Hydro2DSpec.
Local Open Scope Z_scope.

Definition arr_eqb (a b : arr) : bool := if arr_eq_dec a b then true else false.
Definition only (l : list arr) (a : arr) : bool := existsb (arr_eqb a) l.

Ltac own_goal := intros; first [ reflexivity | split; reflexivity | simpl; discriminate ].

Section Facts.
Context {T : Type} {N : Num T}.
Variable m : mesh.
Variable S : hset T.
Variable g : gravp.
Variable dt : T.
Variable inb : extents.
Hypothesis Hslope : slope_ok S.
Hypothesis Hsolver : solver_ok2 S.

Lemma slopes2_some q a b c d : slopes2 S q a b c d <> None.
Proof.
  unfold slopes2. pose proof Hslope as Hs. unfold slope_ok in Hs.
  destruct (neqb (slope_type S) n0); [discriminate|].
  destruct (neqb (slope_type S) n1); [discriminate|].
  destruct (neqb (slope_type S) n2); [discriminate|]. discriminate Hs.
Qed.

Lemma riemann2_some ql qr : riemann2 S ql qr <> None.
Proof.
  unfold riemann2. pose proof Hsolver as Hs. unfold solver_ok2 in Hs.
  destruct (solver S); congruence.
Qed.

Ltac foot_step :=
  match goal with
  | |- foot _ _ _ Done => exact I
  | |- foot _ _ _ (rd2 _ _ _ _) => apply foot_rd2
  | |- foot _ _ _ (wr2 _ _ _ _ _) => apply foot_wr2
  | |- foot _ _ _ (need (slopes2 _ _ _ _ _ _) _) => apply foot_need; [apply slopes2_some|]
  | |- foot _ _ _ (need (riemann2 _ _ _) _) => apply foot_need; [apply riemann2_some|]
  | |- foot _ _ _ (predict2 _ _ _ _ _ _) => unfold predict2; destruct (g_enabled g && g_hancock g) eqn:?
  | |- foot _ _ _ (slopes_at2 _ _ _ _) => unfold slopes_at2
  | |- foot _ _ _ (accum _ _ _ _ _) => apply foot_accum
  | |- foot _ _ _ (atomics _ _ _ _ _) => apply foot_atomics
  | |- foot _ _ _ (Rd _ _) => split
  | |- foot _ _ _ (Wr _ _ _) => split
  | |- forall _, foot _ _ _ _ => intro
  end.
Ltac foots := repeat foot_step.

(** ** Footprints: each item writes only its own cell *)

Lemma own_convert a : a = A_U \/ a = A_U2 ->
  forall c, own_foot (only [A_Q]) (cell2of c) (convert_item2 m S a c).
Proof.
  intros Ha [i j]. unfold own_foot, convert_item2. destruct (_ && _); [|exact I].
  foots; destruct Ha as [-> | ->]; own_goal.
Qed.

Lemma own_fluxes : forall c, own_foot (only [A_Fx; A_Fy]) (cell2of c) (fluxes_item2 m S g dt c).
Proof.
  intros [i j]. unfold own_foot, fluxes_item2. destruct (inner2_le m i j); [|exact I].
  foots; own_goal.
Qed.

Lemma own_update a : a = A_U \/ a = A_U2 ->
  forall c, own_foot (only [a]) (cell2of c) (update_item2 m a c).
Proof.
  intros Ha [i j]. unfold own_foot, update_item2. destruct (inner2 m i j); [|exact I].
  destruct Ha as [-> | ->]; foots; intros; repeat split; own_goal.
Qed.

Lemma own_update_dir xdir a : a = A_U \/ a = A_U2 ->
  forall c, own_foot (only [a]) (cell2of c) (update_dir_item2 m xdir a A_Fx c).
Proof.
  intros Ha [i j]. unfold own_foot, update_dir_item2. destruct (inner2 m i j); [|exact I].
  destruct xdir; destruct Ha as [-> | ->]; foots; intros; repeat split; own_goal.
Qed.

Lemma own_slopes : forall c, own_foot (only [A_Sx; A_Sy]) (cell2of c) (slopes_item2 m S c).
Proof.
  intros [i j]. unfold own_foot, slopes_item2. destruct (_ && _); [|exact I].
  foots; own_goal.
Qed.

Lemma own_trace xdir :
  forall c, own_foot (only [A_Fx]) (cell2of c) (trace_fluxes_item2 m S g dt xdir A_Fx c).
Proof.
  intros [i j]. unfold own_foot, trace_fluxes_item2. destruct (inner2_le m i j); [|exact I].
  destruct xdir; foots; own_goal.
Qed.

Lemma own_gravity ain aout : buffers ain aout ->
  forall c, own_foot (only [aout]) (cell2of c) (gravity_item2 m S dt ain aout c).
Proof.
  intros Hb [i j]. unfold own_foot, gravity_item2. destruct (inner2 m i j); [|exact I].
  destruct Hb as [[-> ->]|[-> ->]]; foots; own_goal.
Qed.

Lemma own_deep_copy dst src : dst <> src ->
  forall c : Z * Z, own_foot (T := T) (only [dst]) (cell2of c)
    (let (i, j) := c in copy_n (Z.to_nat (nbvar m)) 0 (L2 dst i j) (L2 src i j)).
Proof.
  intros Hne [i j]. apply foot_copy_n. intros v Hv. split; simpl.
  - unfold arr_eqb. destruct (arr_eq_dec src dst); [congruence|discriminate].
  - unfold arr_eqb. destruct (arr_eq_dec dst dst); [auto|congruence].
Qed.

(** ** Values *)

Notation Gf s := (fun i j v => s (L2 A_G i j v)).

Lemma run_slopes_at2 i j k s :
  run (slopes_at2 S i j k) s =
  run (k (get2 s A_Q i j) (fst (dqf S (get2 s A_Q) i j)) (snd (dqf S (get2 s A_Q) i j))) s.
Proof.
  unfold slopes_at2, dqf. rewrite !run_rd2. unfold need.
  destruct (slopes2 _ _ _ _ _ _) as [d|] eqn:E; [reflexivity|].
  exfalso. eapply slopes2_some; eauto.
Qed.

Lemma run_predict2 i j q k s :
  run (predict2 g dt i j q k) s =
  run (k (if g_enabled g && g_hancock g then kick2 dt q (s (L2 A_G i j IX)) (s (L2 A_G i j IY)) else q)) s.
Proof. unfold predict2. destruct (g_enabled g && g_hancock g); reflexivity. Qed.

Lemma run_riemann2 ql qr (k : hs T -> prog T) s :
  run (need (riemann2 S ql qr) k) s = run (k (solve S ql qr)) s.
Proof.
  unfold need, solve. destruct (riemann2 S ql qr) as [d|] eqn:E; [reflexivity|].
  exfalso. eapply riemann2_some; eauto.
Qed.

Lemma hget_hscale q c v : 0 <= v < 5 -> hget (hscale q c) v = nmul (hget q v) c.
Proof.
  intros Hv. assert (v = 0 \/ v = 1 \/ v = 2 \/ v = 3 \/ v = 4) as [->|[->|[->|[->| ->]]]] by lia; reflexivity.
Qed.

Lemma get2_put2_FQ s i j q : get2 (put2 s A_Fx i j q) A_Q = get2 (T := T) s A_Q.
Proof. reflexivity. Qed.
Lemma put2_FG s i j q i' j' v : put2 (T := T) s A_Fx i j q (L2 A_G i' j' v) = s (L2 A_G i' j' v).
Proof. reflexivity. Qed.

Lemma convert_spec a s s' : a = A_U \/ a = A_U2 ->
  exec inb s (map (convert_item2 m S a) (cells2 m)) s' ->
  (forall i j, cell2 m i j -> get2 s' A_Q i j = fst (prim2 S (get2 s a i j))) /\
  (forall l, la l <> A_Q -> s' l = s l).
Proof.
  intros Ha Hex. destruct (cellwise2 _ _ _ _ _ _ _ (own_convert a Ha) Hex) as [H1 H2]. split.
  - intros i j [Hi Hj]. apply get2_eq; [reflexivity|]. intros v Hv. unfold L2 at 1.
    rewrite H1 by (unfold isize, jsize; lia). unfold convert_item2.
    replace (_ && _) with true by (unfold isize, jsize; lia).
    rewrite run_rd2, run_wr2. cbn [run]. apply put2_same. auto.
  - intros l Hl. apply H2. destruct l as [[] ? ? ? ?]; simpl in *; congruence.
Qed.

Lemma fluxes_spec s s' : 1 <= gw m ->
  exec inb s (map (fluxes_item2 m S g dt) (cells2 m)) s' ->
  (forall i j v, gw m <= i <= nx m + gw m -> gw m <= j <= ny m + gw m -> 0 <= v < 4 ->
     s' (L2 A_Fx i j v) = FX S g dt (get2 s A_Q) (Gf s) i j v /\
     s' (L2 A_Fy i j v) = FY S g dt (get2 s A_Q) (Gf s) i j v) /\
  (forall l, la l <> A_Fx -> la l <> A_Fy -> s' l = s l).
Proof.
  intros Hg Hex. destruct (cellwise2 _ _ _ _ _ _ _ own_fluxes Hex) as [H1 H2]. split.
  - intros i j v Hi Hj Hv.
    assert (HG : inner2_le m i j = true) by (unfold inner2_le, isize, jsize; lia).
    unfold L2 at 1 3. rewrite !H1 by (unfold isize, jsize; lia). unfold fluxes_item2. rewrite HG.
    rewrite !run_slopes_at2, !run_predict2, !run_riemann2, !run_wr2,
      !run_slopes_at2, !run_predict2, !run_riemann2, !run_wr2.
    rewrite !get2_put2_FQ, !put2_FG. cbn [run].
    split.
    + rewrite put2_other by (simpl; intros [E _]; discriminate). 
      change (mkloc A_Fx i j 0 v) with (L2 A_Fx i j v). rewrite put2_same by auto.
      rewrite hget_hscale by lia. reflexivity.
    + change (mkloc A_Fy i j 0 v) with (L2 A_Fy i j v). rewrite put2_same by auto.
      rewrite hget_hscale by lia. reflexivity.
  - intros l Hl Hl'. apply H2. destruct l as [[] ? ? ? ?]; simpl in *; congruence.
Qed.

Lemma L2_inj a i j v1 v2 : L2 a i j v1 = L2 a i j v2 -> v1 = v2.
Proof. intros E; inversion E; auto. Qed.

Lemma update_spec a s s' : a = A_U \/ a = A_U2 ->
  exec inb s (map (update_item2 m a) (cells2 m)) s' ->
  (forall i j v, phys2 m i j -> 0 < gw m -> 0 <= v < 4 ->
     s' (L2 a i j v) =
     nsub (nadd (nsub (nadd (s (L2 a i j v)) (s (L2 A_Fx i j v))) (s (L2 A_Fx (i + 1) j v)))
       (s (L2 A_Fy i j v))) (s (L2 A_Fy i (j + 1) v))) /\
  (forall i j v, cell2 m i j -> ~ phys2 m i j -> s' (L2 a i j v) = s (L2 a i j v)) /\
  (forall l, la l <> a -> s' l = s l).
Proof.
  intros Ha Hex. destruct (cellwise2 _ _ _ _ _ _ _ (own_update a Ha) Hex) as [H1 H2].
  assert (Hne : forall b i j v i' j' v', b = A_Fx \/ b = A_Fy -> L2 a i j v <> L2 b i' j' v').
  { intros b i j v i' j' v' Hb E. inversion E. destruct Ha, Hb; congruence. }
  split; [|split].
  - intros i j v [Hi Hj] Hg Hv. unfold physical in *. unfold L2 at 1.
    rewrite H1 by (unfold isize, jsize; lia). unfold update_item2.
    replace (inner2 m i j) with true by (unfold inner2, isize, jsize; lia).
    rewrite !run_accum. cbn [run]. fold (L2 a i j v).
    rewrite !acc_val by (try apply nodup_vars2; try (apply in_vars2; lia); try apply L2_inj; auto).
    rewrite !acc_other by auto. reflexivity.
  - intros i j v [Hi Hj] Hn. unfold L2 at 1. rewrite H1 by (unfold isize, jsize; lia).
    unfold update_item2. replace (inner2 m i j) with false; [reflexivity|].
    unfold phys2, physical in Hn. unfold inner2, isize, jsize. lia.
  - intros l Hl. apply H2. simpl. unfold arr_eqb. destruct (arr_eq_dec (la l) a); auto. contradiction.
Qed.

Lemma update_dir_spec xdir a s s' : a = A_U \/ a = A_U2 ->
  exec inb s (map (update_dir_item2 m xdir a A_Fx) (cells2 m)) s' ->
  (forall i j v, phys2 m i j -> 0 < gw m -> 0 <= v < 4 ->
     s' (L2 a i j v) =
     nsub (nadd (s (L2 a i j v)) (s (L2 A_Fx i j v)))
          (if xdir then s (L2 A_Fx (i + 1) j v) else s (L2 A_Fx i (j + 1) v))) /\
  (forall i j v, cell2 m i j -> ~ phys2 m i j -> s' (L2 a i j v) = s (L2 a i j v)) /\
  (forall l, la l <> a -> s' l = s l).
Proof.
  intros Ha Hex. destruct (cellwise2 _ _ _ _ _ _ _ (own_update_dir xdir a Ha) Hex) as [H1 H2].
  assert (Hne : forall b i j v i' j' v', b = A_Fx \/ b = A_Fy -> L2 a i j v <> L2 b i' j' v').
  { intros b i j v i' j' v' Hb E. inversion E. destruct Ha, Hb; congruence. }
  split; [|split].
  - intros i j v [Hi Hj] Hg Hv. unfold physical in *. unfold L2 at 1.
    rewrite H1 by (unfold isize, jsize; lia). unfold update_dir_item2.
    replace (inner2 m i j) with true by (unfold inner2, isize, jsize; lia).
    destruct xdir; rewrite !run_accum; cbn [run]; fold (L2 a i j v);
    rewrite !acc_val by (try apply nodup_vars2; try (apply in_vars2; lia); try apply L2_inj; auto);
    rewrite !acc_other by auto; reflexivity.
  - intros i j v [Hi Hj] Hn. unfold L2 at 1. rewrite H1 by (unfold isize, jsize; lia).
    unfold update_dir_item2. replace (inner2 m i j) with false; [reflexivity|].
    unfold phys2, physical in Hn. unfold inner2, isize, jsize. lia.
  - intros l Hl. apply H2. simpl. unfold arr_eqb. destruct (arr_eq_dec (la l) a); auto. contradiction.
Qed.

Lemma slopes_spec s s' : 1 <= gw m ->
  exec inb s (map (slopes_item2 m S) (cells2 m)) s' ->
  (forall i j, gw m - 1 <= i <= nx m + gw m -> gw m - 1 <= j <= ny m + gw m ->
     forall v, 0 <= v < 4 ->
     s' (L2 A_Sx i j v) = hget (fst (dqf S (get2 s A_Q) i j)) v /\
     s' (L2 A_Sy i j v) = hget (snd (dqf S (get2 s A_Q) i j)) v) /\
  (forall l, la l <> A_Sx -> la l <> A_Sy -> s' l = s l).
Proof.
  intros Hg Hex. destruct (cellwise2 _ _ _ _ _ _ _ own_slopes Hex) as [H1 H2]. split.
  - intros i j Hi Hj v Hv. unfold L2 at 1 2.
    rewrite !H1 by (unfold isize, jsize; lia). unfold slopes_item2.
    replace (_ && _) with true by (unfold isize, jsize; lia).
    rewrite !run_rd2, !run_wr2. cbn [run]. split.
    + rewrite put2_other by (simpl; intros [E _]; discriminate).
      change (mkloc A_Sx i j 0 v) with (L2 A_Sx i j v). rewrite put2_same by auto. reflexivity.
    + change (mkloc A_Sy i j 0 v) with (L2 A_Sy i j v). rewrite put2_same by auto. reflexivity.
  - intros l Hl Hl'. apply H2. destruct l as [[] ? ? ? ?]; simpl in *; congruence.
Qed.


Lemma dqf_hw Q i j : hw (fst (dqf S Q i j)) = n0 /\ hw (snd (dqf S Q i j)) = n0.
Proof.
  unfold dqf, slopes2. destruct (neqb _ _); [split; reflexivity|].
  destruct (_ || _); split; reflexivity.
Qed.

Lemma trace_spec xdir s s' : 1 <= gw m ->
  (forall i j, gw m - 1 <= i <= nx m + gw m -> gw m - 1 <= j <= ny m + gw m ->
     get2 s A_Sx i j = fst (dqf S (get2 s A_Q) i j) /\
     get2 s A_Sy i j = snd (dqf S (get2 s A_Q) i j)) ->
  exec inb s (map (trace_fluxes_item2 m S g dt xdir A_Fx) (cells2 m)) s' ->
  (forall i j v, gw m <= i <= nx m + gw m -> gw m <= j <= ny m + gw m -> 0 <= v < 4 ->
     s' (L2 A_Fx i j v) =
       if xdir then FX S g dt (get2 s A_Q) (Gf s) i j v else FY S g dt (get2 s A_Q) (Gf s) i j v) /\
  (forall l, la l <> A_Fx -> s' l = s l).
Proof.
  intros Hg HS Hex. destruct (cellwise2 _ _ _ _ _ _ _ (own_trace xdir) Hex) as [H1 H2]. split.
  - intros i j v Hi Hj Hv.
    assert (HG : inner2_le m i j = true) by (unfold inner2_le, isize, jsize; lia).
    unfold L2 at 1. rewrite !H1 by (unfold isize, jsize; lia). unfold trace_fluxes_item2. rewrite HG.
    destruct (HS i j) as [E1 E2]; try lia.
    rewrite !run_rd2, E1, E2. destruct xdir.
    + destruct (HS (i - 1) j) as [E3 E4]; try lia.
      rewrite run_predict2, !run_rd2, E3, E4, run_predict2, run_riemann2, run_wr2. cbn [run].
      change (mkloc A_Fx i j 0 v) with (L2 A_Fx i j v). rewrite put2_same by auto.
      rewrite hget_hscale by lia. reflexivity.
    + destruct (HS i (j - 1)) as [E3 E4]; try lia.
      rewrite run_predict2, !run_rd2, E3, E4, run_predict2, run_riemann2, run_wr2. cbn [run].
      change (mkloc A_Fx i j 0 v) with (L2 A_Fx i j v). rewrite put2_same by auto.
      rewrite hget_hscale by lia. reflexivity.
  - intros l Hl. apply H2. destruct l as [[] ? ? ? ?]; simpl in *; congruence.
Qed.

Lemma gravity_spec ain aout s s' : buffers ain aout ->
  exec inb s (map (gravity_item2 m S dt ain aout) (cells2 m)) s' ->
  (forall i j v, phys2 m i j -> 0 < gw m -> 0 <= v < 4 ->
     s' (L2 aout i j v) =
     grav_source S dt (fun i j v => s (L2 ain i j v)) (Gf s) (fun i j v => s (L2 aout i j v)) i j v) /\
  (forall i j v, cell2 m i j -> ~ phys2 m i j -> s' (L2 aout i j v) = s (L2 aout i j v)) /\
  (forall l, la l <> aout -> s' l = s l).
Proof.
  intros Hb Hex. destruct (cellwise2 _ _ _ _ _ _ _ (own_gravity ain aout Hb) Hex) as [H1 H2].
  split; [|split].
  - intros i j v [Hi Hj] Hg Hv. unfold physical in *. unfold L2 at 1.
    rewrite H1 by (unfold isize, jsize; lia). unfold gravity_item2.
    replace (inner2 m i j) with true by (unfold inner2, isize, jsize; lia).
    cbn [run]. fold (L2 aout i j v).
    assert (v = 0 \/ v = 1 \/ v = 2 \/ v = 3) as [->|[->|[->| ->]]] by lia;
    unfold IE, IU, IV, ID;
    repeat (first [rewrite upd_same | rewrite upd_other by (cbv; congruence)]); reflexivity.
  - intros i j v [Hi Hj] Hn. unfold L2 at 1. rewrite H1 by (unfold isize, jsize; lia).
    unfold gravity_item2. replace (inner2 m i j) with false; [reflexivity|].
    unfold phys2, physical in Hn. unfold inner2, isize, jsize. lia.
  - intros l Hl. apply H2. simpl. unfold arr_eqb. destruct (arr_eq_dec (la l) aout); auto. contradiction.
Qed.

Lemma deep_copy_spec dst src s s' : dst <> src -> 0 <= nbvar m ->
  exec (T := T) inb s (deep_copy2 m dst src) s' ->
  (forall i j v, cell2 m i j -> 0 <= v < nbvar m -> s' (L2 dst i j v) = s (L2 src i j v)) /\
  (forall l, la l <> dst -> s' l = s l).
Proof.
  intros Hne Hn Hex. unfold deep_copy2 in Hex.
  destruct (cellwise2 _ _ _ _ _ _ _ (own_deep_copy dst src Hne) Hex) as [H1 H2]. split.
  - intros i j v [Hi Hj] Hv. unfold L2 at 1. rewrite H1 by (unfold isize, jsize; lia).
    fold (L2 dst i j v). apply (run_copy_n (L2 dst i j) (L2 src i j)).
    + intros v1 v2. apply L2_inj.
    + intros v1 v2 E. inversion E. contradiction.
    + lia.
  - intros l Hl. apply H2. simpl. unfold arr_eqb. destruct (arr_eq_dec (la l) dst); auto. contradiction.
Qed.

(** ** The scheme depends on a small stencil only *)

Lemma dqf_ext Q1 Q2 i j :
  (forall i' j', i - 1 <= i' <= i + 1 -> j - 1 <= j' <= j + 1 -> Q1 i' j' = Q2 i' j') ->
  dqf S Q1 i j = dqf S Q2 i j.
Proof. intros H. unfold dqf. rewrite !H by lia. reflexivity. Qed.

Lemma face_state_ext Q1 Q2 G1 G2 i j f :
  (forall i' j', i - 1 <= i' <= i + 1 -> j - 1 <= j' <= j + 1 -> Q1 i' j' = Q2 i' j') ->
  (forall v, G1 i j v = G2 i j v) ->
  face_state S g dt Q1 G1 i j f = face_state S g dt Q2 G2 i j f.
Proof. intros H HG. unfold face_state. rewrite (dqf_ext Q1 Q2 i j H), H, !HG by lia. reflexivity. Qed.

Lemma FX_ext Q1 Q2 G1 G2 i j v :
  (forall i' j', i - 2 <= i' <= i + 1 -> j - 1 <= j' <= j + 1 -> Q1 i' j' = Q2 i' j') ->
  (forall i' v, i - 1 <= i' <= i -> G1 i' j v = G2 i' j v) ->
  FX S g dt Q1 G1 i j v = FX S g dt Q2 G2 i j v.
Proof.
  intros H HG. unfold FX.
  rewrite (face_state_ext Q1 Q2 G1 G2 (i - 1) j), (face_state_ext Q1 Q2 G1 G2 i j); auto;
  intros; try apply H; try apply HG; lia.
Qed.

Lemma FY_ext Q1 Q2 G1 G2 i j v :
  (forall i' j', i - 1 <= i' <= i + 1 -> j - 2 <= j' <= j + 1 -> Q1 i' j' = Q2 i' j') ->
  (forall j' v, j - 1 <= j' <= j -> G1 i j' v = G2 i j' v) ->
  FY S g dt Q1 G1 i j v = FY S g dt Q2 G2 i j v.
Proof.
  intros H HG. unfold FY.
  rewrite (face_state_ext Q1 Q2 G1 G2 i (j - 1)), (face_state_ext Q1 Q2 G1 G2 i j); auto;
  intros; try apply H; try apply HG; lia.
Qed.

End Facts.

(** Footprint goals of 2D items, for use outside this file. *)
Ltac foots2 := repeat
  match goal with
  | |- foot _ _ _ Done => exact I
  | |- foot _ _ _ (rd2 _ _ _ _) => apply foot_rd2
  | |- foot _ _ _ (wr2 _ _ _ _ _) => apply foot_wr2
  | |- foot _ _ _ (need (slopes2 _ _ _ _ _ _) _) => apply foot_need; [apply slopes2_some; assumption|]
  | |- foot _ _ _ (need (riemann2 _ _ _) _) => apply foot_need; [apply riemann2_some; assumption|]
  | |- foot _ _ _ (predict2 ?g _ _ _ _ _) => unfold predict2; destruct (g_enabled g && g_hancock g) eqn:?
  | |- foot _ _ _ (slopes_at2 _ _ _ _) => unfold slopes_at2
  | |- foot _ _ _ (accum _ _ _ _ _) => apply foot_accum
  | |- foot _ _ _ (atomics _ _ _ _ _) => apply foot_atomics
  | |- foot _ _ _ (copy_n _ _ _ _) => apply foot_copy_n
  | |- foot _ _ _ (Rd _ _) => split
  | |- foot _ _ _ (Wr _ _ _) => split
  | |- forall _, foot _ _ _ _ => intro
  end.
