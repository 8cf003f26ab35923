(** * C58: the Riemann configurations *)
From Coq Require Import ZArith List Bool String Reals Lra Lia.
Import ListNotations.
From Verif Require Import Num Exec Grid HydroNum HydroPhysics EulerSpec Hydro2D Hydro3D Hydro2DSpec Hydro3DSpec Hydro2DRun Hydro3DRun
  Config Params Binary64 ProblemParams Init InitSpec PropInit PropInitHydro RiemannConfig RiemannConfigSpec Program.
Local Open Scope R_scope.

Lemma sqrt_between x lo hi : 0 <= lo -> 0 <= hi -> lo * lo <= x -> x <= hi * hi -> lo <= sqrt x <= hi.
Proof.
  intros H0 H1 H2 H3. split.
  - rewrite <- (sqrt_square lo) by lra. now apply sqrt_le_1_alt.
  - rewrite <- (sqrt_square hi) by lra. now apply sqrt_le_1_alt.
Qed.

(** Bounds in millionths. *)
Ltac bound x lo hi := pose proof (sqrt_between x (lo / 1000000) (hi / 1000000) ltac:(lra) ltac:(lra) ltac:(lra) ltac:(lra)).
Ltac state := lazy -[IZR Rdiv Ropp Rplus Rmult Rminus Rlt Rle Rabs sqrt pow].
Ltac num := apply Rabs_le; lra.
Ltac contact := state; split; lra.
Ltac rare la ha lb hb :=
  state; split; [lra|split; [lra|split; [num|]]];
  match goal with |- Rabs (_ - 5 * Rabs (sqrt ?b - sqrt ?a)) <= _ => bound a la ha; bound b lb hb end;
  first [rewrite (Rabs_right (sqrt _ - sqrt _)) by lra | rewrite (Rabs_left (sqrt _ - sqrt _)) by lra]; num.
Ltac shock l h :=
  state; split; [lra|split; [lra|split; [num|]]];
  match goal with |- Rabs (_ - sqrt ?a) <= _ => bound a l h end; num.

(** The configurations of the table are those of Lax and Liu: the states of neighbouring
    quadrants are joined by the wave of their list.  Numbers count from 0 and
    configurations from 1; configurations 6, 10 and 19 are excepted. *)
Theorem C58_configurations :
  forall junk n, (0 <= n < 18)%Z -> n <> 5%Z -> n <> 9%Z ->
  configuration (lax_liu (n + 1)) (riemann_config2d junk n).
Proof.
  intros junk n Hn H5 H9.
  assert (H : In n [0; 1; 2; 3; 4; 6; 7; 8; 10; 11; 12; 13; 14; 15; 16; 17]%Z) by (cbn [In]; lia).
  clear Hn H5 H9. unfold configuration.
  repeat (destruct H as [<- | H]); [.. | contradiction].
  - refine (conj _ (conj _ (conj _ _))); [rare 1038047 1038050 1183214 1183217 | rare 757178 757181 1038047 1038050 | rare 757178 757181 902367 902370 | rare 902367 902370 1183214 1183217].
  - refine (conj _ (conj _ (conj _ _))); [rare 1038047 1038050 1183214 1183217 | rare 1183214 1183217 1038047 1038050 | rare 1183214 1183217 1038047 1038050 | rare 1038047 1038050 1183214 1183217].
  - refine (conj _ (conj _ (conj _ _))); [shock 1205970 1205973 | shock 1206090 1206093 | shock 1206090 1206093 | shock 1205970 1205973].
  - refine (conj _ (conj _ (conj _ _))); [shock 893828 893831 | shock 893828 893831 | shock 893828 893831 | shock 893828 893831].
  - refine (conj _ (conj _ (conj _ _))); [contact | contact | contact | contact].
  - refine (conj _ (conj _ (conj _ _))); [rare 1038047 1038050 1183214 1183217 | contact | contact | rare 1038047 1038050 1183214 1183217].
  - refine (conj _ (conj _ (conj _ _))); [rare 1183214 1183217 1038047 1038050 | contact | contact | rare 1183214 1183217 1038047 1038050].
  - refine (conj _ (conj _ (conj _ _))); [contact | rare 734151 734154 836659 836662 | contact | rare 1038047 1038050 1183214 1183217].
  - refine (conj _ (conj _ (conj _ _))); [shock 727532 727535 | contact | contact | shock 727532 727535].
  - refine (conj _ (conj _ (conj _ _))); [shock 727532 727535 | contact | contact | shock 727532 727535].
  - refine (conj _ (conj _ (conj _ _))); [contact | shock 514494 514497 | contact | shock 727532 727535].
  - refine (conj _ (conj _ (conj _ _))); [contact | shock 2434725 2434728 | contact | shock 1721265 1721268].
  - refine (conj _ (conj _ (conj _ _))); [rare 1038047 1038050 1183214 1183217 | contact | contact | shock 727532 727535].
  - refine (conj _ (conj _ (conj _ _))); [rare 1170295 1170298 1026653 1026656 | contact | contact | shock 727532 727535].
  - refine (conj _ (conj _ (conj _ _))); [contact | shock 514494 514497 | contact | rare 1038047 1038050 1183214 1183217].
  - refine (conj _ (conj _ (conj _ _))); [contact | shock 514494 514497 | contact | rare 1038047 1038050 1183214 1183217].
Qed.
Print Assumptions C58_configurations.

(** The tolerances separate these states from others: configuration 3 has no contact and
    no rarefaction between its quadrants. *)
Example C58_configurations_sharp :
  ~ joined Contact (@hu R) (@hv R) (riemann_config2d (fun _ => mkhs 0 0 0 0 0) 2 1) (riemann_config2d (fun _ => mkhs 0 0 0 0 0) 2 0) /\
  ~ joined Rarefaction (@hu R) (@hv R) (riemann_config2d (fun _ => mkhs 0 0 0 0 0) 2 1) (riemann_config2d (fun _ => mkhs 0 0 0 0 0) 2 0).
Proof. state. split; intros [_ H]; lra. Qed.

(** Configuration 6 is not four contacts: the pressure of the second quadrant is half
    that of its neighbours. *)
Theorem C58_configuration_6_refuted :
  forall junk, ~ joined Contact (@hu R) (@hv R) (riemann_config2d junk 5 1) (riemann_config2d junk 5 0) /\
  ~ joined Contact (@hv R) (@hu R) (riemann_config2d junk 5 2) (riemann_config2d junk 5 1).
Proof. intros junk. state. split; intros [H _]; lra. Qed.
Print Assumptions C58_configuration_6_refuted.

(** Its other two interfaces are contacts. *)
Theorem C58_configuration_6 :
  forall junk, joined Contact (@hu R) (@hv R) (riemann_config2d junk 5 2) (riemann_config2d junk 5 3) /\
  joined Contact (@hv R) (@hu R) (riemann_config2d junk 5 3) (riemann_config2d junk 5 0).
Proof. intros junk. split; contact. Qed.

(** Configuration 10: the velocity of the fourth quadrant misses the Riemann invariant by
    more than three times the tolerance; the other interfaces are right. *)
Theorem C58_configuration_10_refuted :
  forall junk, ~ joined Rarefaction (@hv R) (@hu R) (riemann_config2d junk 9 3) (riemann_config2d junk 9 0).
Proof.
  intros junk. state. intros (_ & _ & _ & H).
  match type of H with Rabs (_ - 5 * Rabs (sqrt ?b - sqrt ?a)) <= _ => bound a 1011354 1011357; bound b 1183214 1183217 end.
  rewrite (Rabs_right (sqrt _ - sqrt _)) in H by lra.
  revert H. unfold Rabs. destruct (Rcase_abs _); lra.
Qed.
Print Assumptions C58_configuration_10_refuted.

Theorem C58_configuration_10 :
  forall junk, let U := riemann_config2d junk 9 in
  joined Contact (@hu R) (@hv R) (U 1%Z) (U 0%Z) /\ joined Rarefaction (@hv R) (@hu R) (U 2%Z) (U 1%Z) /\
  joined Contact (@hu R) (@hv R) (U 2%Z) (U 3%Z).
Proof. intros junk U. subst U. refine (conj _ (conj _ _)); [contact | rare 1430272 1430275 1673319 1673322 | contact]. Qed.

(** Number 18 (configuration 19) gives the states of configuration 1: the case does not
    end with [break]. *)
Section Generic.
Context {T : Type} `{Num T}.

Lemma switch2d_default (Us : Z -> hs T) n : (n < 0 \/ 18 <= n)%Z -> exists ws, switch n cases2d Us = assigns (assigns Us ws) (snd (fst (nth 19 cases2d (None, [], true)))).
Proof.
  intros Hn. unfold switch.
  destruct (Z.eq_dec n 18) as [->|H18].
  - exists (snd (fst (nth 18 cases2d (None, [], true)))). reflexivity.
  - exists []. assert (J : jump (Some n) (cases2d (T := T)) = None).
    { unfold cases2d. cbn [jump is_label]. repeat (match goal with |- context [(n =? ?k)%Z] => destruct (Z.eqb_spec n k); [lia|] end). reflexivity. }
    rewrite J. reflexivity.
Qed.

Lemma four (q : Z) : (0 <= q < 4)%Z -> q = 0%Z \/ q = 1%Z \/ q = 2%Z \/ q = 3%Z. Proof. lia. Qed.
Lemma eight (q : Z) : (0 <= q < 8)%Z -> q = 0%Z \/ q = 1%Z \/ q = 2%Z \/ q = 3%Z \/ q = 4%Z \/ q = 5%Z \/ q = 6%Z \/ q = 7%Z. Proof. lia. Qed.
Ltac quadrants H := first [apply four in H | apply eight in H]; repeat (destruct H as [-> | H]); [.. | subst].

(** The last assignments win: whatever was in the array. *)
Lemma default2d (Us : Z -> hs T) q : (0 <= q < 4)%Z ->
  let u := assigns Us (snd (fst (nth 19 cases2d (None, [], true)))) q in
  let v := switch 0 cases2d (fun _ => mkhs n0 n0 n0 n0 n0) q in
  hd u = hd v /\ hp u = hp v /\ hu u = hu v /\ hv u = hv v.
Proof. intros Hq. cbv zeta. quadrants Hq; vm_compute; repeat split; reflexivity. Qed.

(** Every number gives defined states: nothing is left of the uninitialised array. *)
Theorem C58_defined :
  forall (junk junk' : Z -> hs T) n q,
  ((0 <= q < 4)%Z -> riemann_config2d junk n q = riemann_config2d junk' n q) /\
  ((0 <= q < 8)%Z -> riemann_config3d junk n q = riemann_config3d junk' n q).
Proof.
  intros junk junk' n q. split; intros Hq.
  - unfold riemann_config2d. cbv zeta.
    assert (D : (n < 0 \/ 18 <= n)%Z \/ In n [0; 1; 2; 3; 4; 5; 6; 7; 8; 9; 10; 11; 12; 13; 14; 15; 16; 17]%Z) by (cbn [In]; lia).
    destruct D as [D|D].
    + destruct (switch2d_default junk n D) as [ws ->]. destruct (switch2d_default junk' n D) as [ws' ->].
      destruct (default2d (assigns junk ws) q Hq) as (-> & -> & -> & ->).
      destruct (default2d (assigns junk' ws') q Hq) as (-> & -> & -> & ->). reflexivity.
    + quadrants Hq; repeat (destruct D as [<- | D]; [vm_compute; reflexivity|]); contradiction.
  - unfold riemann_config3d, switch.
    assert (J : jump (Some n) (cases3d (T := T)) = if (n =? 2)%Z then Some cases3d else if (n =? 3)%Z then Some (tl cases3d) else None) by reflexivity.
    rewrite J. destruct (n =? 2)%Z; [|destruct (n =? 3)%Z]; quadrants Hq; vm_compute; reflexivity.
Qed.

(** In two dimensions every number outside 0..17 selects configuration 1; in three
    dimensions every number but 2 selects configuration 4. *)
Theorem C58_default :
  forall (junk : Z -> hs T) n q,
  ((0 <= q < 4)%Z -> (n < 0 \/ 18 <= n)%Z -> riemann_config2d junk n q = riemann_config2d junk 0 q) /\
  ((0 <= q < 8)%Z -> n <> 2%Z -> riemann_config3d junk n q = riemann_config3d junk 3 q).
Proof.
  intros junk n q. split.
  - intros Hq Hn. rewrite (proj1 (C58_defined junk (fun _ => mkhs n0 n0 n0 n0 n0) 0%Z q) Hq).
    unfold riemann_config2d. cbv zeta. destruct (switch2d_default junk n Hn) as [ws ->].
    destruct (default2d (assigns junk ws) q Hq) as (-> & -> & -> & ->). reflexivity.
  - intros Hq Hn. unfold riemann_config3d, switch.
    assert (J : jump (Some n) (cases3d (T := T)) = if (n =? 3)%Z then Some (tl cases3d) else None).
    { unfold cases3d. cbn [jump is_label tl]. destruct (Z.eqb_spec n 2); [contradiction|reflexivity]. }
    rewrite J. destruct (n =? 3)%Z; quadrants Hq; vm_compute; reflexivity.
Qed.

(** Three dimensions: the upper octants of configuration 3, and the lower ones of
    configuration 4, are the quadrants of the two-dimensional configuration; and the
    former is symmetric in x and y. *)
Theorem C58_octants :
  forall (junk : Z -> hs T) q, (0 <= q < 4)%Z ->
  (let u := riemann_config3d junk 2 (q + 4) in let v := riemann_config2d junk 2 q in
   hd u = hd v /\ hp u = hp v /\ hu u = hu v /\ hv u = hv v) /\
  (let u := riemann_config3d junk 3 q in let v := riemann_config2d junk 3 q in
   hd u = hd v /\ hp u = hp v /\ hu u = hu v /\ hv u = hv v).
Proof. intros junk q Hq. quadrants Hq; vm_compute; repeat split; reflexivity. Qed.

Theorem C58_octants_symmetric :
  forall (junk : Z -> hs T) q, (0 <= q < 8)%Z ->
  riemann_config3d junk 2 (swap_quadrant q) = swap_xy (riemann_config3d junk 2 q).
Proof. intros junk q Hq. quadrants Hq; vm_compute; reflexivity. Qed.
End Generic.
Print Assumptions C58_defined.
Print Assumptions C58_default.
Print Assumptions C58_octants.
Print Assumptions C58_octants_symmetric.

Theorem C58_configuration_19_refuted :
  forall junk, ~ configuration (lax_liu 19) (riemann_config2d junk 18).
Proof.
  intros junk [H _]. rewrite !(proj1 (C58_default junk 18%Z _)) in H by lia. revert H. state. intros [H _]. lra.
Qed.
Print Assumptions C58_configuration_19_refuted.

(** Its states are written, and then overwritten. *)
Example C58_configuration_19_written :
  forall junk, configuration (lax_liu 19) (assigns junk (snd (fst (nth 18 (cases2d (T := R)) (None, [], true))))).
Proof. intros junk. refine (conj _ (conj _ (conj _ _))); [contact | shock 514494 514497 | contact | rare 1038047 1038050 1183214 1183217]. Qed.

(** Configuration 4 in three dimensions, which every other number selects, is not
    symmetric: the dense gas of octant 5 has no counterpart in octant 7. *)
Theorem C58_octants_4_refuted :
  forall (junk : Z -> hs R) n, n <> 2%Z ->
  riemann_config3d junk n (swap_quadrant 5) <> swap_xy (riemann_config3d junk n 5).
Proof.
  intros junk n Hn. change (swap_quadrant 5) with 7%Z. rewrite !(proj2 (C58_default junk n _)) by (lia || assumption).
  intros E. apply (f_equal (@hd R)) in E. revert E. state. intros E. lra.
Qed.
Print Assumptions C58_octants_4_refuted.

(** Densities and pressures are positive. *)
Theorem C58_positive :
  forall (junk : Z -> hs R) n q,
  ((0 <= q < 4)%Z -> 0 < hd (riemann_config2d junk n q) /\ 0 < hp (riemann_config2d junk n q)) /\
  ((0 <= q < 8)%Z -> 0 < hd (riemann_config3d junk n q) /\ 0 < hp (riemann_config3d junk n q)).
Proof.
  intros junk n q. split; intros Hq.
  - assert (D : (n < 0 \/ 18 <= n)%Z \/ In n [0; 1; 2; 3; 4; 5; 6; 7; 8; 9; 10; 11; 12; 13; 14; 15; 16; 17]%Z) by (cbn [In]; lia).
    destruct D as [D|D].
    + rewrite (proj1 (C58_default junk n q) Hq D). apply four in Hq. destruct Hq as [->|[->|[->| ->]]]; state; lra.
    + apply four in Hq. destruct Hq as [->|[->|[->| ->]]]; repeat (destruct D as [<- | D]; [state; lra|]); contradiction.
  - destruct (Z.eq_dec n 2) as [->|Hn]; [|rewrite (proj2 (C58_default junk n q) Hq Hn)];
    apply eight in Hq; destruct Hq as [->|[->|[->|[->|[->|[->|[->| ->]]]]]]]; state; lra.
Qed.
Print Assumptions C58_positive.

(** ** The initial state of the program

    The problem "four_quadrant" in two dimensions, in exact arithmetic: the quadrants meet
    at (x, y) of section [riemann2d], and the solver reads from its arrays the states of
    the configuration of the number [config_number].  The floors are below the states. *)
Definition low_floors (S : hset R) : Prop := smallr S <= 1 / 10 /\ smallp S <= 1 / 100.

Lemma low_admissible S junk n q : low_floors S ->
  ((0 <= q < 4)%Z -> admissible S (riemann_config2d junk n q)) /\ ((0 <= q < 8)%Z -> admissible S (riemann_config3d junk n q)).
Proof.
  unfold low_floors, admissible. generalize (smallr S) (smallp S). intros a b [F1 F2]. split; intros Hq.
  - assert (D : (n < 0 \/ 18 <= n)%Z \/ In n [0; 1; 2; 3; 4; 5; 6; 7; 8; 9; 10; 11; 12; 13; 14; 15; 16; 17]%Z) by (cbn [In]; lia).
    destruct D as [D|D].
    + rewrite (proj1 (C58_default junk n q) Hq D). apply four in Hq. destruct Hq as [->|[->|[->| ->]]]; state; lra.
    + apply four in Hq. destruct Hq as [->|[->|[->| ->]]]; repeat (destruct D as [<- | D]; [state; lra|]); contradiction.
  - destruct (Z.eq_dec n 2) as [->|Hn]; [|rewrite (proj2 (C58_default junk n q) Hq Hn)];
    apply eight in Hq; destruct Hq as [->|[->|[->|[->|[->|[->|[->| ->]]]]]]]; state; lra.
Qed.

Theorem C58_initial_state :
  forall (cv : b32 -> R) (E : outside R) c inb s s',
  libm (e_lib E) -> sane (the_settings cv c) -> low_floors (the_settings cv c) ->
  main_creates c = Some (HydroMuscl TWO_D) -> the_problem c = "four_quadrant"%string ->
  execs inb s (init_hydro2 (e_lib E) (the_mesh c) (the_settings cv c) (the_box cv c) (e_rnd E) (the_params cv E c) (the_problem c)) s' ->
  forall i j, (0 <= i < isize (the_mesh c))%Z -> (0 <= j < jsize (the_mesh c))%Z ->
  let x := at_x (the_settings cv c) (the_box cv c) (the_mesh c) i in
  let y := at_y (the_settings cv c) (the_box cv c) (the_mesh c) j in
  let x0 := real cv c "riemann2d" "x" (dflt 8 10) in let y0 := real cv c "riemann2d" "y" (dflt 8 10) in
  let U := riemann_config2d (fun _ => mkhs 0 0 0 0 0) (int_setting c "riemann2d" "config_number" 0) in
  let q := Qf (the_settings cv c) (field_of A_U s') i j in
  (x0 <= x -> y0 <= y -> q = U 0%Z) /\ (x < x0 -> y0 <= y -> q = U 1%Z) /\
  (x < x0 -> y < y0 -> q = U 2%Z) /\ (x0 <= x -> y < y0 -> q = U 3%Z).
Proof.
  intros cv E c inb s s' HL HS HF HC HP X i j Hi Hj x y x0 y0 U q.
  rewrite HP in X. pose proof (C52_hydro _ _ _ _ _ _ _ _ _ _ HL HS X i j Hi Hj) as H. cbv zeta in H.
  change (problem_hydro2 "four_quadrant") with FourQuadrant in H. cbn [as_documented doc_hydro2] in H. fold x y q in H.
  assert (HU : forall k, flat (q_states (p_quad (the_params cv E c)) k) = U k).
  { intros k. unfold the_params, three_d. rewrite HC. reflexivity. }
  specialize (H I). unfold doc_four2 in H. rewrite HU in H.
  change (q_xt (p_quad (the_params cv E c))) with x0 in H. change (q_yt (p_quad (the_params cv E c))) with y0 in H.
  assert (HA : forall k, (0 <= k < 4)%Z -> admissible (the_settings cv c) (U k)) by (intros k Hk; now apply low_admissible).
  repeat split; intros Hx Hy; (destruct (Rlt_dec x x0); [|]); (destruct (Rlt_dec y y0); [|]); try lra; apply H, HA; lia.
Qed.
Print Assumptions C58_initial_state.

Theorem C58_initial_state_3d :
  forall (cv : b32 -> R) (E : outside R) c inb s s',
  libm (e_lib E) -> sane (the_settings cv c) -> low_floors (the_settings cv c) ->
  main_creates c = Some (HydroMuscl THREE_D) -> the_problem c = "four_quadrant"%string ->
  execs inb s (init_hydro3 (e_lib E) (the_mesh c) (the_settings cv c) (the_box cv c) (e_rnd E) (the_params cv E c) (the_problem c)) s' ->
  forall i j k, (0 <= i < isize (the_mesh c))%Z -> (0 <= j < jsize (the_mesh c))%Z -> (0 <= k < ksize (the_mesh c))%Z ->
  let x := at_x (the_settings cv c) (the_box cv c) (the_mesh c) i in
  let y := at_y (the_settings cv c) (the_box cv c) (the_mesh c) j in
  let z := at_z (the_settings cv c) (the_box cv c) (the_mesh c) k in
  let x0 := real cv c "riemann2d" "x" (dflt 8 10) in let y0 := real cv c "riemann2d" "y" (dflt 8 10) in
  let z0 := real cv c "riemann2d" "z" (dflt 8 10) in
  let U := riemann_config3d (fun _ => mkhs 0 0 0 0 0) (int_setting c "riemann2d" "config_number" 0) in
  let q := Qf3 (the_settings cv c) (field_of3 A_U s') i j k in
  (z < z0 -> (x0 <= x -> y0 <= y -> q = U 0%Z) /\ (x < x0 -> y0 <= y -> q = U 1%Z) /\
             (x < x0 -> y < y0 -> q = U 2%Z) /\ (x0 <= x -> y < y0 -> q = U 3%Z)) /\
  (z0 <= z -> (x0 <= x -> y0 <= y -> q = U 4%Z) /\ (x < x0 -> y0 <= y -> q = U 5%Z) /\
              (x < x0 -> y < y0 -> q = U 6%Z) /\ (x0 <= x -> y < y0 -> q = U 7%Z)).
Proof.
  intros cv E c inb s s' HL HS HF HC HP X i j k Hi Hj Hk x y z x0 y0 z0 U q.
  rewrite HP in X. pose proof (C52_hydro3d _ _ _ _ _ _ _ _ _ _ HL HS X i j k Hi Hj Hk) as H. cbv zeta in H.
  change (problem_hydro3 "four_quadrant") with FourQuadrant in H. cbn [as_documented doc_hydro3] in H. fold x y z q in H.
  assert (HU : forall o, q_states (p_quad (the_params cv E c)) o = U o).
  { intros o. unfold the_params, three_d. rewrite HC. reflexivity. }
  specialize (H I). unfold doc_four3 in H. rewrite HU in H.
  change (q_xt (p_quad (the_params cv E c))) with x0 in H. change (q_yt (p_quad (the_params cv E c))) with y0 in H.
  change (q_zt (p_quad (the_params cv E c))) with z0 in H.
  assert (HA : forall o, (0 <= o < 8)%Z -> admissible (the_settings cv c) (U o)) by (intros o Ho; now apply low_admissible).
  split; intros Hz; repeat split; intros Hx Hy; (destruct (Rlt_dec x x0)); (destruct (Rlt_dec y y0)); (destruct (Rlt_dec z z0));
    try lra; apply H, HA; lia.
Qed.
Print Assumptions C58_initial_state_3d.
