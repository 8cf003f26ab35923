(** * One full 3D MHD time step, versions 0 and 1 *)
From Coq Require Import ZArith List Bool Lia ZifyBool Permutation Reals Lra.
Import ListNotations.
From Verif Require Import Num Exec ExecFacts Grid GridFacts Boundaries BoundariesSpec
  BoundariesFacts BoundariesFill BoundariesNarrow HydroNum Kernels KernelFacts Atomics
  Hydro2D Hydro2DSpec Hydro2DFacts Hydro2DStep Hydro3D Hydro3DSpec Hydro3DFacts
  MhdNum Mhd2D Mhd2DSpec MhdFacts Mhd2DFacts Mhd2DStep
  Mhd3DNum Mhd3D Mhd3DSpec Mhd3DFacts.
Local Open Scope Z_scope.

(** ** Lists of contributions *)
Lemma concat_map_app {A B} (f g : A -> list B) l :
  Permutation (concat (map (fun a => f a ++ g a) l)) (concat (map f l) ++ concat (map g l)).
Proof.
  induction l as [|a l IH]; simpl; auto. rewrite <- !app_assoc. apply Permutation_app_head.
  rewrite IH. rewrite !app_assoc. apply Permutation_app_tail. apply Permutation_app_comm.
Qed.

Lemma concat_swap {A B C} (f : A -> B -> list C) xs ys :
  Permutation (concat (map (fun x => concat (map (f x) ys)) xs))
              (concat (map (fun y => concat (map (fun x => f x y) xs)) ys)).
Proof.
  induction ys as [|y ys IH]; simpl.
  - induction xs; simpl; auto.
  - rewrite concat_map_app. apply Permutation_app_head. exact IH.
Qed.

Lemma concat_map_perm {A B} (f g : A -> list B) l :
  (forall a, Permutation (f a) (g a)) -> Permutation (concat (map f l)) (concat (map g l)).
Proof. intros Hf. induction l; simpl; auto. apply Permutation_app; auto. Qed.

(** ** Kernels of atomic updates on [aout] *)
Section AtomicKernels.
Context {T : Type} {N : Num T}.
Variable m : mesh.
Variable S : hset T.
Variable dt : T.
Variable inb : extents.
Variable aout : arr.
Hypothesis Hgw : 1 <= gw m.

Notation dtd := (dtd S dt).

Lemma at_loc_mvars3 i j k v i' j' k' (F : Z -> T -> T) (b : bool) : 0 <= v < 8 ->
  at_loc (mkloc aout i j k v) (map (fun v => (mkloc aout i' j' k' v, F v)) (if b then mvars3 else [])) =
  if b && ((i' =? i) && (j' =? j) && (k' =? k)) && (v <? 5) then [F v] else [].
Proof.
  intros Hv. destruct b; [|reflexivity]. cbn [andb].
  assert (Hl : forall v', (if loc_eq_dec (mkloc aout i' j' k' v') (mkloc aout i j k v) then true else false) =
     ((i' =? i) && (j' =? j) && (k' =? k)) && (v' =? v)).
  { intros v'. destruct (loc_eq_dec _ _) as [E|E].
    - inversion E. subst. lia.
    - symmetry. apply not_true_is_false. intros H. apply E. f_equal; lia. }
  unfold at_loc, mvars3. cbn [map filter fst snd]. rewrite !Hl. unfold ID, IP, IU, IV, IW.
  destruct ((i' =? i) && (j' =? j) && (k' =? k)); cbn [andb];
  destruct (eight v Hv) as [->|[->|[->|[->|[->|[->|[->| ->]]]]]]]; reflexivity.
Qed.

Lemma at_loc_one3 i j k v i' j' k' v' (f : T -> T) (b : bool) :
  at_loc (mkloc aout i j k v) (if b then [(mkloc aout i' j' k' v', f)] else []) =
  (if b && ((i' =? i) && (j' =? j) && (k' =? k)) && (v' =? v) then [f] else []).
Proof.
  destruct b; [|reflexivity]. cbn [andb].
  unfold at_loc. cbn [filter fst]. destruct (loc_eq_dec _ _) as [E|E].
  - inversion E; subst. rewrite !Z.eqb_refl. reflexivity.
  - replace (_ && _) with false; [reflexivity|]. symmetry. apply not_true_is_false. intros H.
    apply E. f_equal; lia.
Qed.

(** Contribution of the work item (c1,c2,c3) to variable [v] of cell (i,j,k):
    flux along [d] and EMF along [e]. *)
Definition fpart (f : dir -> Z -> Z -> Z -> ms T) (i j k v : Z) (c : Z * Z * Z) (d : dir) : list (T -> T) :=
  let '(c1, c2, c3) := c in
  (if (c1 =? i) && (c2 =? j) && (c3 =? k) && (v <? 5)
   then [fun x => nadd x (nmul (mget (f d c1 c2 c3) v) (dtd d))] else []) ++
  (if (c1 =? i + ox d) && (c2 =? j + oy d) && (c3 =? k + oz d) && (v <? 5)
   then [fun x => nsub x (nmul (mget (f d c1 c2 c3) v) (dtd d))] else []).

Definition epart (x : dir -> Z -> Z -> Z -> T) (i j k v : Z) (c : Z * Z * Z) (e : dir) : list (T -> T) :=
  let '(c1, c2, c3) := c in
  let t0 := tr0 e in let t1 := tr1 e in
  (if (c1 =? i) && (c2 =? j) && (c3 =? k) && (v =? bcomp t0)
   then [fun y => eop0 e y (nmul (x e c1 c2 c3) (dtd t1))] else []) ++
  (if (c1 =? i) && (c2 =? j) && (c3 =? k) && (v =? bcomp t1)
   then [fun y => eop1 e y (nmul (x e c1 c2 c3) (dtd t0))] else []) ++
  (if (c1 =? i + ox t1) && (c2 =? j + oy t1) && (c3 =? k + oz t1) && (v =? bcomp t0)
   then [fun y => eop1 e y (nmul (x e c1 c2 c3) (dtd t1))] else []) ++
  (if (c1 =? i + ox t0) && (c2 =? j + oy t0) && (c3 =? k + oz t0) && (v =? bcomp t1)
   then [fun y => eop0 e y (nmul (x e c1 c2 c3) (dtd t0))] else []).

Lemma upto3_iff i j k : upto_face3 m i j k = true <->
  gw m <= i <= nx m + gw m /\ gw m <= j <= ny m + gw m /\ gw m <= k <= nz m + gw m.
Proof. unfold upto_face3, isize, jsize, ksize. lia. Qed.

Lemma if_eq {A} (b c : bool) (x y : A) : b = c -> (if b then x else y) = (if c then x else y).
Proof. intros ->. reflexivity. Qed.

Lemma at_flux3 s f d i j k v c1 c2 c3 w : phys3 m i j k -> 0 <= v < 8 -> upto_face3 m c1 c2 c3 = true ->
  at_loc (mkloc aout i j k v) (effects (mflux_updates3 m S dt aout d c1 c2 c3 (f d c1 c2 c3) w) s) =
  fpart f i j k v (c1, c2, c3) d ++ at_loc (mkloc aout i j k v) (effects w s).
Proof.
  intros [[Hi Hj] Hk] Hv HG. unfold physical in *. unfold mflux_updates3, lo3.
  rewrite !effects_matomics, !at_loc_app, !at_loc_mvars3 by auto.
  apply upto3_iff in HG. unfold fpart. rewrite <- app_assoc.
  rewrite !mget_mscale by auto.
  f_equal; [|f_equal]; apply if_eq; unfold below3, lower3, isize, jsize, ksize;
  destruct d; cbn [ox oy oz]; lia.
Qed.

Lemma at_emf3 s x e i j k v c1 c2 c3 w : phys3 m i j k -> 0 <= v < 8 -> upto_face3 m c1 c2 c3 = true ->
  at_loc (mkloc aout i j k v) (effects (memf_updates3 m S dt aout e c1 c2 c3 (x e c1 c2 c3) w) s) =
  epart x i j k v (c1, c2, c3) e ++ at_loc (mkloc aout i j k v) (effects w s).
Proof.
  intros [[Hi Hj] Hk] Hv HG. unfold physical in *. unfold memf_updates3, lo3. cbv zeta.
  rewrite !effects_upd_if, !at_loc_app, !at_loc_one3 by auto.
  apply upto3_iff in HG. unfold epart. cbv zeta. rewrite <- !app_assoc.
  f_equal; [|f_equal; [|f_equal; [|f_equal]]]; apply if_eq;
  unfold below3, lower3, isize, jsize, ksize;
  destruct e; cbn [ox oy oz tr0 tr1 bcomp]; unfold IA, IB, IC; lia.
Qed.

Lemma at_flux3_none s F d i j k v c1 c2 c3 w : cell3 m i j k -> ~ phys3 m i j k -> 0 <= v < 8 ->
  upto_face3 m c1 c2 c3 = true ->
  at_loc (mkloc aout i j k v) (effects (mflux_updates3 m S dt aout d c1 c2 c3 F w) s) =
  at_loc (mkloc aout i j k v) (effects w s).
Proof.
  intros [[Hi Hj] Hk] Hn Hv HG. unfold phys3, phys2, physical in *. unfold mflux_updates3, lo3.
  rewrite !effects_matomics, !at_loc_app, !at_loc_mvars3 by auto.
  apply upto3_iff in HG.
  repeat match goal with |- context [if ?b then _ else _] => replace b with false by
   (unfold below3, lower3, isize, jsize, ksize; destruct d; cbn [ox oy oz]; lia) end.
  reflexivity.
Qed.

Lemma at_emf3_none s X e i j k v c1 c2 c3 w : cell3 m i j k -> ~ phys3 m i j k -> 0 <= v < 8 ->
  upto_face3 m c1 c2 c3 = true ->
  at_loc (mkloc aout i j k v) (effects (memf_updates3 m S dt aout e c1 c2 c3 X w) s) =
  at_loc (mkloc aout i j k v) (effects w s).
Proof.
  intros [[Hi Hj] Hk] Hn Hv HG. unfold phys3, phys2, physical in *. unfold memf_updates3, lo3. cbv zeta.
  rewrite !effects_upd_if, !at_loc_app, !at_loc_one3 by auto.
  apply upto3_iff in HG.
  repeat match goal with |- context [if ?b then _ else _] => replace b with false by
   (unfold below3, lower3, isize, jsize, ksize; destruct e; cbn [ox oy oz tr0 tr1]; lia) end.
  reflexivity.
Qed.

(** The contributions to a cell are those of the four items at its lower corner. *)
Definition four (i j k : Z) : list (Z * Z * Z) :=
  [(i, j, k); (i + 1, j, k); (i, j + 1, k); (i, j, k + 1)].

Lemma four_cells i j k : phys3 m i j k -> NoDup (four i j k) /\ incl (four i j k) (cells3 m).
Proof.
  intros [[Hi Hj] Hk]. unfold physical in *. split.
  - unfold four. repeat constructor; cbn [In]; intros Hin;
    repeat match goal with H : _ \/ _ |- _ => destruct H as [H|H]; [inversion H; lia|] end; contradiction.
  - intros [[c1 c2] c3] Hc. apply in_range3. unfold isize, jsize, ksize.
    cbn [four In] in Hc. repeat (destruct Hc as [Hc|Hc]; [inversion Hc; subst; lia|]). contradiction.
Qed.
Lemma four_upto i j k c : phys3 m i j k -> In c (four i j k) ->
  upto_face3 m (fst (fst c)) (snd (fst c)) (snd c) = true.
Proof.
  intros [[Hi Hj] Hk] Hc. unfold physical in *. apply upto3_iff. cbn [four In] in Hc.
  repeat (destruct Hc as [<-|Hc]; [cbn [fst snd]; lia|]). contradiction.
Qed.

Lemma fpart_out f i j k v c d : ~ In c (four i j k) -> fpart f i j k v c d = [].
Proof.
  intros Hn. destruct c as [[c1 c2] c3]. unfold fpart.
  assert (Hd : forall x y z, (c1 =? x) && (c2 =? y) && (c3 =? z) = true -> (c1, c2, c3) = (x, y, z))
    by (intros; f_equal; [f_equal|]; lia).
  repeat match goal with |- context [if ?b then _ else _] => destruct b eqn:? end; try reflexivity;
  exfalso; apply Hn; cbn [four In];
  match goal with H : _ && (v <? 5) = true |- _ => apply andb_true_iff in H; destruct H as [H _]; apply Hd in H end;
  destruct d; cbn [ox oy oz] in *; rewrite ?Z.add_0_r in *; intuition congruence.
Qed.

Lemma epart_out x i j k v c e : ~ In c (four i j k) -> epart x i j k v c e = [].
Proof.
  intros Hn. destruct c as [[c1 c2] c3]. unfold epart. cbv zeta.
  assert (Hd : forall x y z (b : bool), (c1 =? x) && (c2 =? y) && (c3 =? z) && b = true -> (c1, c2, c3) = (x, y, z))
    by (intros; f_equal; [f_equal|]; lia).
  assert (H0 : forall a b c w, In (a, b, c) (four i j k) -> (c1 =? a) && (c2 =? b) && (c3 =? c) && w = false).
  { intros a b c w Hin. apply not_true_is_false. intros H. apply Hd in H. rewrite H in Hn. contradiction. }
  rewrite !H0; [reflexivity|..]; destruct e; cbn [tr0 tr1 ox oy oz]; rewrite ?Z.add_0_r;
  cbn [four In]; auto.
Qed.

(** Sum of the contributions of one direction. *)
Definition fctr (f : dir -> Z -> Z -> Z -> ms T) (i j k v : Z) (d : dir) : list (T -> T) :=
  if v <? 5 then
    [ (fun x => nadd x (nmul (mget (f d i j k) v) (dtd d)));
      (fun x => nsub x (nmul (mget (f d (i + ox d) (j + oy d) (k + oz d)) v) (dtd d))) ]
  else [].
Definition ectr (x : dir -> Z -> Z -> Z -> T) (i j k v : Z) (e : dir) : list (T -> T) :=
  let t0 := tr0 e in let t1 := tr1 e in
  if v =? bcomp t0 then
    [ (fun y => eop0 e y (nmul (x e i j k) (dtd t1)));
      (fun y => eop1 e y (nmul (x e (i + ox t1) (j + oy t1) (k + oz t1)) (dtd t1))) ]
  else if v =? bcomp t1 then
    [ (fun y => eop1 e y (nmul (x e i j k) (dtd t0)));
      (fun y => eop0 e y (nmul (x e (i + ox t0) (j + oy t0) (k + oz t0)) (dtd t0))) ]
  else [].

Lemma four_fpart f i j k v d : concat (map (fun c => fpart f i j k v c d) (four i j k)) = fctr f i j k v d.
Proof.
  unfold four, fpart, fctr. cbn [map concat].
  destruct d; cbn [ox oy oz];
  rewrite ?Z.add_0_r, ?Z.eqb_refl; rewrite ?app_nil_r;
  repeat match goal with |- context [?a =? ?b] =>
    match a with v => fail 1 | _ => replace (a =? b) with false by lia end end;
  destruct (v <? 5); reflexivity.
Qed.

Lemma four_epart x i j k v e : concat (map (fun c => epart x i j k v c e) (four i j k)) = ectr x i j k v e.
Proof.
  unfold four, epart, ectr. cbv zeta. cbn [map concat].
  destruct e; cbn [ox oy oz tr0 tr1 bcomp];
  rewrite ?Z.add_0_r, ?Z.eqb_refl; rewrite ?app_nil_r;
  repeat match goal with |- context [?a =? ?b] =>
    match a with v => fail 1 | _ => replace (a =? b) with false by lia end end;
  unfold IA, IB, IC in *;
  repeat match goal with |- context [v =? ?b] => destruct (v =? b) eqn:? end;
  try (exfalso; lia); reflexivity.
Qed.

(** What a kernel of atomic updates does: [ctr] are the contributions to each
    variable of each cell of the domain; nothing else changes. *)
Definition accumulates (ctr : Z -> Z -> Z -> Z -> list (T -> T)) (s s' : store T) : Prop :=
  (forall i j k v, phys3 m i j k -> 0 <= v < 8 ->
     exists ops, Permutation ops (ctr i j k v) /\
       s' (mkloc aout i j k v) = fold_left (fun y f => f y) ops (s (mkloc aout i j k v))) /\
  (forall i j k v, cell3 m i j k -> ~ phys3 m i j k -> 0 <= v < 8 ->
     s' (mkloc aout i j k v) = s (mkloc aout i j k v)) /\
  (forall l, la l <> aout -> s' l = s l).

Lemma accumulates_trans c1 c2 s1 s2 s3 : accumulates c1 s1 s2 -> accumulates c2 s2 s3 ->
  accumulates (fun i j k v => c1 i j k v ++ c2 i j k v) s1 s3.
Proof.
  intros (A1 & A2 & A3) (B1 & B2 & B3). split; [|split].
  - intros i j k v Hp Hv. destruct (A1 i j k v Hp Hv) as (o1 & P1 & E1).
    destruct (B1 i j k v Hp Hv) as (o2 & P2 & E2). exists (o1 ++ o2). split.
    + apply Permutation_app; auto.
    + rewrite fold_left_app, <- E1. exact E2.
  - intros. rewrite B2 by auto. auto.
  - intros. rewrite B3 by auto. auto.
Qed.

Lemma accumulates_ext c1 c2 s s' : accumulates c1 s s' ->
  (forall i j k v, phys3 m i j k -> 0 <= v < 8 -> Permutation (c1 i j k v) (c2 i j k v)) ->
  accumulates c2 s s'.
Proof.
  intros (A1 & A2 & A3) Hc. split; [|split]; auto.
  intros i j k v Hp Hv. destruct (A1 i j k v Hp Hv) as (o1 & P1 & E1).
  exists o1. split; auto. rewrite P1. auto.
Qed.

Section One.
Variable body : Z * Z * Z -> prog T.
Variables s s' : store T.
Hypothesis Hfoot : forall c, atomic_only aout (body c).
Hypothesis Hex : exec inb s (map body (cells3 m)) s'.

Lemma ak3_frame l : la l <> aout -> s' l = s l.
Proof.
  refine (proj1 (atomic_exec (fun l => la l <> aout) (fun l => la l = aout) _ inb s _ s' _ Hex) l).
  - intros; auto.
  - apply Forall_forall. intros p Hp. apply in_map_iff in Hp. destruct Hp as (c & <- & _). apply Hfoot.
Qed.

Lemma ak3_pick l picks : NoDup picks -> incl picks (cells3 m) ->
  (forall c, In c (cells3 m) -> ~ In c picks -> at_loc l (effects (body c) s) = []) ->
  exists ops, Permutation ops (concat (map (fun c => at_loc l (effects (body c) s)) picks)) /\
    s' l = fold_left (fun x f => f x) ops (s l).
Proof.
  intros Hn Hi H0.
  destruct (atomic_exec_at (fun l => la l <> aout) (fun l => la l = aout) inb s body (cells3 m) s' l
    (fun l H => H) (fun c _ => Hfoot c) Hex) as (ops & HP & E).
  exists ops. split; auto. etransitivity; [exact HP|]. apply concat_pick; auto. apply nodup_range3.
Qed.

Lemma ak3_none l : (forall c, In c (cells3 m) -> at_loc l (effects (body c) s) = []) -> s' l = s l.
Proof.
  intros H0. destruct (ak3_pick l []) as (ops & HP & E); auto.
  - constructor.
  - intros c [].
  - apply Permutation_sym, Permutation_nil in HP. subst. exact E.
Qed.

(** Items that issue the updates of the directions [ds], in order. *)
Section Issue.
Variable upds : dir -> Z -> Z -> Z -> prog T -> prog T.
Variable cpart : Z -> Z -> Z -> Z -> Z * Z * Z -> dir -> list (T -> T).
Variable ctr : Z -> Z -> Z -> Z -> dir -> list (T -> T).
Variable ds : list dir.
Definition issues3 : Prop := forall c1 c2 c3, effects (body (c1, c2, c3)) s =
  if upto_face3 m c1 c2 c3
  then effects (fold_right (fun d w => upds d c1 c2 c3 w) Done ds) s else [].
Hypothesis His : issues3.
Hypothesis Hat : forall d i j k v c1 c2 c3 w, phys3 m i j k -> 0 <= v < 8 -> upto_face3 m c1 c2 c3 = true ->
  at_loc (mkloc aout i j k v) (effects (upds d c1 c2 c3 w) s) =
  cpart i j k v (c1, c2, c3) d ++ at_loc (mkloc aout i j k v) (effects w s).
Hypothesis Hnone : forall d i j k v c1 c2 c3 w, cell3 m i j k -> ~ phys3 m i j k -> 0 <= v < 8 ->
  upto_face3 m c1 c2 c3 = true ->
  at_loc (mkloc aout i j k v) (effects (upds d c1 c2 c3 w) s) = at_loc (mkloc aout i j k v) (effects w s).
Hypothesis Hout : forall i j k v c d, ~ In c (four i j k) -> cpart i j k v c d = [].
Hypothesis Hfour : forall i j k v d, concat (map (fun c => cpart i j k v c d) (four i j k)) = ctr i j k v d.

Lemma at_all i j k v c1 c2 c3 : phys3 m i j k -> 0 <= v < 8 -> upto_face3 m c1 c2 c3 = true ->
  at_loc (mkloc aout i j k v) (effects (fold_right (fun d w => upds d c1 c2 c3 w) Done ds) s) =
  concat (map (cpart i j k v (c1, c2, c3)) ds).
Proof.
  intros Hp Hv HG. clear His. induction ds as [|d l IH]; [reflexivity|].
  cbn [fold_right map concat]. rewrite Hat by auto. rewrite IH. reflexivity.
Qed.

Lemma ak3_all : accumulates (fun i j k v => concat (map (ctr i j k v) ds)) s s'.
Proof.
  split; [|split].
  - intros i j k v Hp Hv. destruct (four_cells i j k Hp) as [F1 F2].
    destruct (ak3_pick (mkloc aout i j k v) _ F1 F2) as (ops & HP & E).
    { intros [[c1 c2] c3] Hc Hn. rewrite His. destruct (upto_face3 m c1 c2 c3) eqn:HG; [|reflexivity].
      rewrite at_all by auto. apply concat_nil. intros d _. apply Hout. auto. }
    exists ops. split; auto. etransitivity; [exact HP|].
    replace (map (fun c => at_loc (mkloc aout i j k v) (effects (body c) s)) (four i j k)) with
      (map (fun c => concat (map (cpart i j k v c) ds)) (four i j k)).
    + rewrite concat_swap. apply concat_map_perm. intros d. rewrite Hfour. reflexivity.
    + apply map_ext_in. intros c Hc. pose proof (four_upto i j k c Hp Hc) as HG.
      destruct c as [[c1 c2] c3]. cbn [fst snd] in HG. rewrite His, HG. rewrite at_all by auto. reflexivity.
  - intros i j k v Hc Hn Hv. apply ak3_none. intros [[c1 c2] c3] _. rewrite His.
    destruct (upto_face3 m c1 c2 c3) eqn:HG; [|reflexivity].
    clear His. induction ds as [|d l IH]; [reflexivity|]. cbn [fold_right]. rewrite Hnone by auto. exact IH.
  - apply ak3_frame.
Qed.
End Issue.

Lemma ak3_flux f ds :
  issues3 (fun d c1 c2 c3 w => mflux_updates3 m S dt aout d c1 c2 c3 (f d c1 c2 c3) w) ds ->
  accumulates (fun i j k v => concat (map (fctr f i j k v) ds)) s s'.
Proof.
  intros His. apply (ak3_all _ (fpart f) (fctr f) ds His).
  - intros. apply at_flux3; auto.
  - intros. apply at_flux3_none; auto.
  - intros. apply fpart_out; auto.
  - intros. apply four_fpart.
Qed.

Lemma ak3_emf x es :
  issues3 (fun e c1 c2 c3 w => memf_updates3 m S dt aout e c1 c2 c3 (x e c1 c2 c3) w) es ->
  accumulates (fun i j k v => concat (map (ectr x i j k v) es)) s s'.
Proof.
  intros His. apply (ak3_all _ (epart x) (ectr x) es His).
  - intros. apply at_emf3; auto.
  - intros. apply at_emf3_none; auto.
  - intros. apply epart_out; auto.
  - intros. apply four_epart.
Qed.
End One.

(** All the contributions of a step. *)
Lemma all_contribs f x i j k v es : 0 <= v < 8 -> Permutation es [DX; DY; DZ] ->
  Permutation (concat (map (fctr f i j k v) [DX; DY; DZ]) ++ concat (map (ectr x i j k v) es))
              (mcontribs3 S dt f x i j k v).
Proof.
  intros Hv Hes.
  assert (HP : Permutation (concat (map (ectr x i j k v) es)) (concat (map (ectr x i j k v) [DZ; DY; DX]))).
  { apply perm_concat_map. rewrite Hes. apply perm_trans with [DY; DX; DZ].
    - constructor.
    - apply Permutation_sym. apply perm_trans with [DY; DZ; DX]; [constructor|].
      apply perm_skip. constructor. }
  rewrite HP. clear HP Hes.
  unfold fctr, ectr, mcontribs3. cbn [map concat tr0 tr1 ox oy oz bcomp]. unfold IA, IB, IC.
  rewrite !Z.add_0_r.
  destruct (eight v Hv) as [->|[->|[->|[->|[->|[->|[->| ->]]]]]]]; reflexivity.
Qed.

End AtomicKernels.

Section Body.
Context {T : Type} {N : Num T}.
Variable m : mesh.
Variable S : hset T.
Variable dt : T.
Variable inb : extents.
Hypothesis Hsolver : msolver_ok S.
Hypothesis Hgw : 3 <= gw m.
Hypothesis Hnv : nbvar m = 8.
Variables ain aout : arr.
Hypothesis Hb : buffers ain aout.

Notation Hain := (buf_in ain aout Hb).
Notation Haout := (buf_out ain aout Hb).
Notation Hne := (buf_ne ain aout Hb).

(** Field seen by the scheme. *)
Variable U : field3 T.

Notation Q := (mQ3 S U).
Notation tr := (mtrace3 S dt U).

(** State after the copy and the conversion to primitive variables. *)
Definition ready3 (s : store T) : Prop :=
  (forall i j k v, cell3 m i j k -> 0 <= v < 8 -> s (mkloc ain i j k v) = U i j k v) /\
  (forall i j k v, cell3 m i j k -> 0 <= v < 8 -> s (mkloc aout i j k v) = U i j k v) /\
  (forall i j k, 0 <= i < isize m - 1 -> 0 <= j < jsize m - 1 -> 0 <= k < ksize m - 1 ->
     gq s A_Q i j k = Q i j k).

Lemma ready3_frame s s' : ready3 s ->
  (forall l, la l = ain \/ la l = aout \/ la l = A_Q -> s' l = s l) -> ready3 s'.
Proof.
  intros (R1 & R2 & R3) Hf. split; [|split].
  - intros. rewrite Hf by (simpl; auto). auto.
  - intros. rewrite Hf by (simpl; auto). auto.
  - intros. rewrite <- R3 by auto. apply getm_ext. intros. apply Hf. simpl; auto.
Qed.

Lemma mprefix_spec3 s1 s' :
  (forall i j k v, cell3 m i j k -> 0 <= v < 8 -> s1 (mkloc ain i j k v) = U i j k v) ->
  execs inb s1 [deep_copy3 m aout ain; map (mconvert_item3 m S ain) (cells3 m)] s' -> ready3 s'.
Proof.
  intros F1 H2. inv_execs H2. inv_execs HT. inv_execs HT0.
  destruct (deep_copy_spec3 m inb aout ain _ _ (not_eq_sym Hne) ltac:(lia) HK) as (D1 & D2).
  destruct (mconvert_spec3 m S inb ain _ _ Hain HK0) as (C1 & C2).
  assert (Hin : forall i j k v, s' (mkloc ain i j k v) = s1 (mkloc ain i j k v)).
  { intros. rewrite C2, D2; auto; simpl; destruct Hb as [[-> ->]|[-> ->]]; congruence. }
  assert (Hout : forall i j k v, s' (mkloc aout i j k v) = s (mkloc aout i j k v)).
  { intros. rewrite C2; auto; simpl; destruct Hb as [[-> ->]|[-> ->]]; congruence. }
  split; [|split].
  - intros i j k v Hc Hv. rewrite Hin. apply F1; auto.
  - intros i j k v Hc Hv. rewrite Hout, D1 by (auto; lia). apply F1; auto.
  - intros i j k Hi Hj Hk. rewrite C1 by auto.
    apply (agr_at i j k i j k 0 0); [lia|]. apply agr_Q. apply agrU_same. intros x y z v Hx Hy Hz Hv.
    unfold gu. rewrite D2 by (simpl; apply Hne). apply F1; auto.
    unfold cell3, cell2, isize, jsize, ksize in *. lia.
Qed.

Lemma buf_other3 x : x <> A_U -> x <> A_U2 -> ain <> x /\ aout <> x.
Proof. intros H1 H2. destruct Hb as [[-> ->]|[-> ->]]; split; congruence. Qed.

(** After the trace kernel. *)
Definition traced3 (s : store T) : Prop :=
  (forall p i j k, gw m - 2 <= i <= nx m + gw m -> gw m - 2 <= j <= ny m + gw m ->
     gw m - 2 <= k <= nz m + gw m -> gT s p i j k = tr p i j k) /\
  (forall i j k v, cell3 m i j k -> 0 <= v < 8 -> s (mkloc aout i j k v) = U i j k v).

(** A buffer, A_Q and an array that is neither. *)
Lemma ready3_off s s' (W : list arr) : ready3 s -> ~ In A_U W -> ~ In A_U2 W -> ~ In A_Q W ->
  (forall l, ~ In (la l) W -> s' l = s l) -> ready3 s'.
Proof.
  intros HR H1 H2 H3 Hf. apply (ready3_frame s); auto. intros l Hl. apply Hf.
  destruct Hl as [->|[->| ->]]; auto; destruct Hb as [[-> ->]|[-> ->]]; auto.
Qed.

Definition elec3_done (s : store T) : Prop :=
  forall e i j k, 1 <= i < isize m - 1 -> 1 <= j < jsize m - 1 -> 1 <= k < ksize m - 1 ->
    gE s e i j k = mEl3 Q U e i j k.

Lemma melec_ready3 s s' : ready3 s -> exec inb s (map (melec_item3 m ain) (cells3 m)) s' ->
  ready3 s' /\ elec3_done s' /\ (forall l, la l <> A_Elec -> s' l = s l).
Proof.
  intros HR Hex. destruct (melec_spec3 m inb ain _ _ Hain Hex) as (E1 & E2).
  split; [|split]; auto.
  - apply (ready3_off s s' [A_Elec]); auto; simpl; try (intuition discriminate).
    intros l Hl. apply E2. intros Hx. apply Hl. left. auto.
  - intros e i j k Hi Hj Hk. rewrite E1 by auto. destruct HR as (R1 & R2 & R3).
    apply (agr_at i j k i j k 0 0); [lia|]. apply agr_El.
    + apply agr_same. intros. apply R3; lia.
    + apply agrU_same. intros. apply R1; auto. unfold cell3, cell2, isize, jsize, ksize in *. lia.
Qed.

Lemma mtrace_ready3 s s1 s2 s3 : ready3 s ->
  exec inb s (map (melec_item3 m ain) (cells3 m)) s1 ->
  exec inb s1 (map (mmag_item3 m S ain) (cells3 m)) s2 ->
  exec inb s2 (map (mtrace_item3 m S dt ain) (cells3 m)) s3 -> traced3 s3.
Proof.
  intros HR X1 X2 X3. destruct (melec_ready3 _ _ HR X1) as (HR1 & HE1 & _).
  destruct (mmag_spec3 m S inb ain _ _ Hain X2) as (D1 & D2).
  assert (HR2 : ready3 s2).
  { apply (ready3_off s1 s2 [A_DA; A_DB; A_DC]); auto; simpl; intuition discriminate. }
  assert (HE2 : elec3_done s2).
  { intros e i j k Hi Hj Hk. rewrite <- HE1 by auto. apply D2. simpl. intuition discriminate. }
  destruct (mtrace_spec3 m S dt inb ain _ _ Hain ltac:(lia) X3) as (T1 & T2).
  destruct HR2 as (R1 & R2 & R3). destruct HR1 as (R1' & _).
  split.
  - intros p i j k Hi Hj Hk. rewrite T1 by auto. unfold mtrace3.
    apply (agr_at i j k i j k 0 0); [lia|]. apply agr_tr.
    + apply agr_same. intros. apply R3; unfold isize, jsize, ksize; lia.
    + apply agrU_same. intros. apply R1; auto. unfold cell3, cell2. lia.
    + intros e. apply agr_same. intros. apply HE2; unfold isize, jsize, ksize; lia.
    + intros c d. apply agr_same. intros x y z Hx Hy Hz.
      rewrite D1 by (unfold isize, jsize, ksize; lia).
      apply (agr_at x y z x y z 0 0); [lia|]. apply agr_D. apply agrU_same. intros.
      apply R1'; auto. unfold cell3, cell2. lia.
  - intros. rewrite T2; [apply R2; auto|]. simpl.
    destruct Hb as [[-> ->]|[-> ->]]; intuition discriminate.
Qed.

Notation flux := (mF3 S tr).
Notation emf := (mE3 S tr).

Lemma sF_ok s d i j k : (forall p i j k, gw m - 2 <= i <= nx m + gw m -> gw m - 2 <= j <= ny m + gw m ->
     gw m - 2 <= k <= nz m + gw m -> gT s p i j k = tr p i j k) ->
  gw m <= i <= nx m + gw m -> gw m <= j <= ny m + gw m -> gw m <= k <= nz m + gw m ->
  mF3 S (gT s) d i j k = flux d i j k.
Proof.
  intros T1 Hi Hj Hk. apply (agr_at i j k i j k 0 0); [lia|]. apply agr_F. intros p.
  apply agr_same. intros. apply T1; lia.
Qed.
Lemma sE_ok3 s e i j k : (forall p i j k, gw m - 2 <= i <= nx m + gw m -> gw m - 2 <= j <= ny m + gw m ->
     gw m - 2 <= k <= nz m + gw m -> gT s p i j k = tr p i j k) ->
  gw m <= i <= nx m + gw m -> gw m <= j <= ny m + gw m -> gw m <= k <= nz m + gw m ->
  mE3 S (gT s) e i j k = emf e i j k.
Proof.
  intros T1 Hi Hj Hk. apply (agr_at i j k i j k 0 0); [lia|]. apply agr_E. intros p.
  apply agr_same. intros. apply T1; lia.
Qed.

(** What a step must achieve. *)
Definition mresult3 (s' : store T) : Prop :=
  (forall i j k v, phys3 m i j k -> 0 <= v < 8 -> s' (mkloc aout i j k v) = mstep3 S dt U i j k v) /\
  (forall i j k v, cell3 m i j k -> ~ phys3 m i j k -> 0 <= v < 8 -> s' (mkloc aout i j k v) = U i j k v).

Lemma parr_not p : parr p <> A_U /\ parr p <> A_U2 /\ parr p <> A_Q /\ parr p <> A_Emf /\
  parr p <> A_Fx /\ parr p <> A_Fy /\ parr p <> A_Fz.
Proof. destruct p as [[]|[]|[] []]; repeat split; discriminate. Qed.

Lemma phys_cell3' i j k : phys3 m i j k -> cell3 m i j k.
Proof. unfold phys3, phys2, cell3, cell2, physical. intros. lia. Qed.

Lemma mscheme3_V0 s s' : ready3 s -> execs inb s (mscheme3 m S dt V0 ain aout) s' -> mresult3 s'.
Proof.
  intros HR Hex. cbn [mscheme3] in Hex. inv_execs Hex. inv_execs HT. inv_execs HT0. inv_execs HT.
  inv_execs HT0. inv_execs HT. inv_execs HT0. inv_execs HT.
  pose proof (mtrace_ready3 _ _ _ _ HR HK HK0 HK1) as (T1 & T2).
  destruct (mfluxes_spec3 m S inb Hsolver _ _ ltac:(lia) HK2) as (F1 & F2).
  destruct (memf_spec3 m S inb _ _ ltac:(lia) HK3) as (E1 & E2).
  destruct (mupdate_spec3 m S dt inb aout _ _ Haout ltac:(lia) HK4) as (U1 & U2 & U3 & U4).
  destruct (mupdate_emf_spec3 m S dt inb aout _ _ Haout ltac:(lia) HK5) as (V1 & V2 & V3 & V4).
  assert (N1 : ~ In aout [A_Fx; A_Fy; A_Fz] /\ aout <> A_Emf)
    by (destruct Hb as [[-> ->]|[-> ->]]; simpl; intuition discriminate).
  destruct N1 as (N1 & N2).
  rename s2 into st, s3 into sf, s4 into se, s5 into su.
  assert (Hun : forall i j k v, cell3 m i j k -> 0 <= v < 8 -> gu se aout i j k v = U i j k v).
  { intros. unfold gu. rewrite E2 by auto. rewrite F2 by auto. apply T2; auto. }
  assert (Hsf : forall p i j k, gT sf p i j k = gT st p i j k).
  { intros. apply getm_ext. intros. apply F2. simpl. pose proof (parr_not p). intuition congruence. }
  split.
  - intros i j k v Hp Hv. assert (Hc := phys_cell3' i j k Hp).
    assert (Hij := Hp). destruct Hij as [[Hi Hj] Hk]. unfold physical in Hi, Hj, Hk.
    unfold mstep3.
    destruct (Z_lt_le_dec v 5) as [Hlt|Hge].
    + rewrite V2 by (auto; lia). rewrite U1 by (auto; lia).
      unfold mbalance3, IA, IB, IC.
      replace (v =? 5) with false by lia. replace (v =? 6) with false by lia. replace (v =? 7) with false by lia.
      assert (HF : forall d x y z, gw m <= x <= nx m + gw m -> gw m <= y <= ny m + gw m ->
        gw m <= z <= nz m + gw m -> swapm d (gq se (farr d) x y z) = flux d x y z).
      { intros d x y z Hx Hy Hz. transitivity (swapm d (gq sf (farr d) x y z)).
        - f_equal. apply getm_ext. intros. apply E2. destruct d; simpl; discriminate.
        - rewrite F1 by auto. rewrite swapm_twice. apply sF_ok; auto. }
      rewrite !HF by lia. rewrite Hun by auto. reflexivity.
    + rewrite V1 by (auto; lia).
      assert (HE : forall e x y z, gw m <= x <= nx m + gw m -> gw m <= y <= ny m + gw m ->
        gw m <= z <= nz m + gw m -> gu su A_Emf x y z (iemf e) = emf e x y z).
      { intros e x y z Hx Hy Hz. unfold gu. rewrite U4 by (simpl; congruence).
        fold (gu se A_Emf x y z (iemf e)).
        rewrite E1 by lia. apply sE_ok3; try lia. intros. rewrite Hsf. apply T1; auto. }
      assert (HU : forall v, 5 <= v < 8 -> gu su aout i j k v = U i j k v).
      { intros. unfold gu. rewrite U2 by auto. apply Hun; auto. lia. }
      unfold mbalance3. rewrite !HE by lia. rewrite !HU by (unfold IA, IB, IC; lia).
      unfold IA, IB, IC. assert (Hvv : v = 5 \/ v = 6 \/ v = 7) by lia.
      destruct Hvv as [->|[->| ->]]; reflexivity.
  - intros i j k v Hc Hp Hv. rewrite V3 by auto. rewrite U3 by auto. apply Hun; auto.
Qed.

(** Result when the contributions are accumulated by atomics. *)
Definition mresult_any3 (flux : dir -> Z -> Z -> Z -> ms T) (emf : dir -> Z -> Z -> Z -> T)
    (s' : store T) : Prop :=
  (forall i j k v, phys3 m i j k -> 0 <= v < 8 ->
     mbalance_any3 S dt flux emf U i j k v (s' (mkloc aout i j k v))) /\
  (forall i j k v, cell3 m i j k -> ~ phys3 m i j k -> 0 <= v < 8 -> s' (mkloc aout i j k v) = U i j k v).

Ltac atomic_foot3 := footm3; intros; simpl; auto; try (destruct Haout as [-> | ->]; discriminate).

Lemma foot_mfluxes_update3 c : atomic_only aout (mfluxes_update_item3 m S dt aout c).
Proof.
  destruct c as [[i j] k]. unfold atomic_only, mfluxes_update_item3.
  destruct (upto_face3 m i j k); [|exact I]. atomic_foot3.
Qed.

Lemma foot_memf_update3 c : atomic_only aout (memf_update_item3 m S dt aout c).
Proof.
  destruct c as [[i j] k]. unfold atomic_only, memf_update_item3.
  destruct (upto_face3 m i j k); [|exact I]. atomic_foot3.
Qed.

Lemma effects_mflux_updates3 a d i j k f c c' s : effects c s = effects c' s ->
  effects (mflux_updates3 m S dt a d i j k f c) s = effects (mflux_updates3 m S dt a d i j k f c') s.
Proof. intros E. unfold mflux_updates3. rewrite !effects_matomics, E. reflexivity. Qed.
Lemma effects_memf_updates3 a e i j k x c c' s : effects c s = effects c' s ->
  effects (memf_updates3 m S dt a e i j k x c) s = effects (memf_updates3 m S dt a e i j k x c') s.
Proof. intros E. unfold memf_updates3. cbv zeta. rewrite !effects_upd_if, E. reflexivity. Qed.

Lemma issues_mfluxes_update3 s :
  issues3 m (mfluxes_update_item3 m S dt aout) s
    (fun d c1 c2 c3 w => mflux_updates3 m S dt aout d c1 c2 c3 (mF3 S (gT s) d c1 c2 c3) w) [DX; DY; DZ].
Proof.
  intros c1 c2 c3. unfold mfluxes_update_item3. destruct (upto_face3 m c1 c2 c3); [|reflexivity].
  cbn [fold_right].
  rewrite effects_mflux_dir3, swapm_twice by auto. apply effects_mflux_updates3.
  rewrite effects_mflux_dir3, swapm_twice by auto. apply effects_mflux_updates3.
  rewrite effects_mflux_dir3, swapm_twice by auto. reflexivity.
Qed.

Lemma issues_memf_update3 s :
  issues3 m (memf_update_item3 m S dt aout) s
    (fun e c1 c2 c3 w => memf_updates3 m S dt aout e c1 c2 c3 (mE3 S (gT s) e c1 c2 c3) w) [DZ; DY; DX].
Proof.
  intros c1 c2 c3. unfold memf_update_item3. destruct (upto_face3 m c1 c2 c3); [|reflexivity].
  cbn [fold_right].
  rewrite effects_medge3. apply effects_memf_updates3.
  rewrite effects_medge3. apply effects_memf_updates3.
  rewrite effects_medge3. reflexivity.
Qed.

(** From the accumulated contributions to the result. *)
Lemma fctr_ext f1 f2 i j k v d : phys3 m i j k ->
  (forall d x y z, gw m <= x <= nx m + gw m -> gw m <= y <= ny m + gw m -> gw m <= z <= nz m + gw m ->
     f1 d x y z = f2 d x y z) -> fctr S dt f1 i j k v d = fctr S dt f2 i j k v d.
Proof.
  intros [[Hi Hj] Hk] Hf. unfold physical in *. unfold fctr.
  rewrite !Hf by (destruct d; cbn [ox oy oz]; lia). reflexivity.
Qed.
Lemma ectr_ext x1 x2 i j k v e : phys3 m i j k ->
  (forall e x y z, gw m <= x <= nx m + gw m -> gw m <= y <= ny m + gw m -> gw m <= z <= nz m + gw m ->
     x1 e x y z = x2 e x y z) -> ectr S dt x1 i j k v e = ectr S dt x2 i j k v e.
Proof.
  intros [[Hi Hj] Hk] Hf. unfold physical in *. unfold ectr.
  rewrite !Hf by (destruct e; cbn [ox oy oz tr0 tr1]; lia). reflexivity.
Qed.

Lemma accumulated f x s s' es : Permutation es [DX; DY; DZ] ->
  (forall i j k v, cell3 m i j k -> 0 <= v < 8 -> s (mkloc aout i j k v) = U i j k v) ->
  accumulates m aout (fun i j k v => concat (map (fctr S dt f i j k v) [DX; DY; DZ]) ++
                                     concat (map (ectr S dt x i j k v) es)) s s' ->
  mresult_any3 f x s'.
Proof.
  intros Hes HU (A1 & A2 & A3). split.
  - intros i j k v Hp Hv. destruct (A1 i j k v Hp Hv) as (ops & HP & E).
    rewrite HU in E by (auto; apply phys_cell3'; auto).
    exists ops. split; auto. rewrite HP. apply all_contribs; auto.
  - intros. rewrite A2 by auto. auto.
Qed.

Lemma mscheme3_V1 s s' : ready3 s -> execs inb s (mscheme3 m S dt V1 ain aout) s' ->
  mresult_any3 flux emf s'.
Proof.
  intros HR Hex. cbn [mscheme3] in Hex. inv_execs Hex. inv_execs HT. inv_execs HT0. inv_execs HT.
  inv_execs HT0. inv_execs HT.
  pose proof (mtrace_ready3 _ _ _ _ HR HK HK0 HK1) as (T1 & T2).
  rename s2 into st, s3 into sf.
  pose proof (ak3_flux m S dt inb aout ltac:(lia) _ _ _ foot_mfluxes_update3 HK2 _ _ (issues_mfluxes_update3 st)) as A1.
  pose proof (ak3_emf m S dt inb aout ltac:(lia) _ _ _ foot_memf_update3 HK3 _ _ (issues_memf_update3 sf)) as A2.
  assert (Hsf : forall p i j k, gT sf p i j k = gT st p i j k).
  { intros. apply getm_ext. intros. apply A1. simpl. pose proof (parr_not p).
    destruct Haout as [-> | ->]; tauto. }
  apply (accumulated _ _ st s' [DZ; DY; DX]); auto.
  { apply Permutation_sym. change [DZ; DY; DX] with (rev [DX; DY; DZ]). apply Permutation_rev. }
  eapply accumulates_ext; [eapply accumulates_trans; [exact A1|exact A2]|].
  intros i j k v Hp Hv. cbn beta.
  apply Permutation_app; apply concat_map_perm; intros d.
  - erewrite fctr_ext; [reflexivity|exact Hp|]. intros. apply sF_ok; auto.
  - erewrite ectr_ext; [reflexivity|exact Hp|]. intros. apply sE_ok3; auto.
    intros. rewrite Hsf. apply T1; auto.
Qed.

End Body.
