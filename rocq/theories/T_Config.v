(** C77: the fluxes and reconstructions one can ask for, and which of them work
    together. *)
From Coq Require Import ZArith List Bool Reals String Ascii Lia Lra.
From Verif Require Import M_Base M_Vec M_Boundary M_Flux M_Combined M_Scalar M_Euler M_Recon M_Config.
From Verif Require Import S_Boundary S_Flux S_Recon S_Config L_Base L_Flux L_System L_Conserve L_FluxTop L_Recon L_Config T_Recon.
Import ListNotations.
Open Scope Z_scope.

(** ** Names *)

Lemma flux_names_lower eq f : In f (flux_names eq) -> all_lower f = true.
Proof.
  unfold flux_names. intros H.
  repeat match type of H with In _ (if ?b then _ else _) => destruct b end;
  cbn [In] in H; repeat (destruct H as [<- | H]; [reflexivity|]); destruct H.
Qed.
Lemma recon_names_word eq r : In r (recon_names eq) -> r <> ""%string /\ no_space r = true.
Proof.
  unfold recon_names. intros H. destruct (existsb _ _);
  cbn [app In] in H; repeat (destruct H as [<- | H]; [split; [discriminate|reflexivity]|]); destruct H.
Qed.
Lemma flux_name_iff eq f fl : In f (flux_names eq) -> (to_lower fl = f <-> same_but_case f fl).
Proof. intros H. apply to_lower_spec. now apply flux_names_lower with eq. Qed.
Lemma recon_name_iff eq r rcn : In r (recon_names eq) -> (trim rcn = r <-> padded rcn r).
Proof. intros H. destruct (recon_names_word eq r H). now apply trim_spec. Qed.

(** What the strings of a configuration ask for. *)
Definition asks (eq fl rcn f r : string) : Prop :=
  In f (flux_names eq) /\ same_but_case f fl /\ In r (recon_names eq) /\ padded rcn r.
Lemma asks_iff eq fl rcn f r : asks eq fl rcn f r <->
  to_lower fl = f /\ trim rcn = r /\ In f (flux_names eq) /\ In r (recon_names eq).
Proof.
  unfold asks. split.
  - intros (A & B & C & D). apply (flux_name_iff eq) in B; auto. apply (recon_name_iff eq) in D; auto.
  - intros (A & B & C & D). rewrite (flux_name_iff eq) in A by exact C. rewrite (recon_name_iff eq) in B by exact D. auto.
Qed.

(** The configurations that are accepted: an offered flux in upper or lower case and
    an offered reconstruction with white space around it. *)
Theorem C77_accepted : forall gamma eq fl rcn,
  (exists s, create_scheme gamma eq fl rcn = Ok s) <-> exists f r, asks eq fl rcn f r.
Proof.
  intros gamma eq fl rcn.
  assert (G : (exists f r, asks eq fl rcn f r) <-> In (to_lower fl) (flux_names eq) /\ In (trim rcn) (recon_names eq)).
  { split.
    - intros (f & r & H). apply asks_iff in H. destruct H as (-> & -> & A & B). auto.
    - intros [A B]. exists (to_lower fl), (trim rcn). apply asks_iff. auto. }
  rewrite G. split.
  - intros (s & H). apply create_scheme_iff in H. destruct H as (e & fx & rc & He & Hf & Hr & _).
    rewrite <- (find_flux_some eq e gamma) by exact He. rewrite <- (find_recon_some eq e gamma) by exact He. eauto.
  - intros [A B]. destruct (last_match eq equations) as [e|] eqn:He.
    + rewrite <- (find_flux_some eq e gamma) in A by exact He. rewrite <- (find_recon_some eq e gamma) in B by exact He.
      destruct A as [fx A], B as [rc B]. eexists. apply create_scheme_iff. exists e, fx, rc. eauto.
    + exfalso. rewrite last_match_eqs in He. unfold flux_names in A.
      repeat match type of He with (if ?b then _ else _) = _ => destruct b eqn:?; [discriminate|] end.
      cbn [existsb orb] in A. repeat match goal with K : String.eqb eq _ = false |- _ => rewrite K in A end. exact A.
Qed.
Print Assumptions C77_accepted.

(** `ToDo` is not a flux; "TecNO4" and " eno3\n" are understood. *)
Example C77_accepted_example :
  asks "burgers" "TecNO4" (String " " ("eno3" ++ String "010" "")) "tecno4" "eno3" /\
  create_scheme 0 "burgers" "todo" "none" = Throw /\
  create_scheme 0 "burgers" "central" "ENO2" = Throw /\
  create_scheme 0 "burgers" "central" "wenof2" = Throw /\
  create_scheme 0 "Burgers" "central" "none" = Throw.
Proof.
  split; [apply asks_iff; vm_compute; tauto|]. repeat split.
Qed.

(** A rejected configuration throws; nothing is undefined. *)
Theorem C77_rejected : forall gamma eq fl rcn,
  create_scheme gamma eq fl rcn = Throw <-> ~ exists f r, asks eq fl rcn f r.
Proof.
  intros gamma eq fl rcn. rewrite <- (C77_accepted gamma).
  destruct (create_scheme gamma eq fl rcn) as [s| |] eqn:E.
  - split; [discriminate|]. intros H. exfalso. apply H. eauto.
  - exfalso. unfold create_scheme in E. destruct (last_match eq equations) as [e|]; [|discriminate].
    destruct (find_recon e gamma (trim rcn)), (find_flux e gamma fl); discriminate.
  - split; [|auto]. intros _ [s H]. discriminate.
Qed.
Print Assumptions C77_rejected.

(** ** Ghost cells *)
Theorem C77_ghost_cells : forall gamma eq fl rcn f r s,
  asks eq fl rcn f r -> create_scheme gamma eq fl rcn = Ok s ->
  scheme_ghosts s = Z.max (flux_points f - 1) (recon_reach r).
Proof.
  intros gamma eq fl rcn f r s A H. apply asks_iff in A. destruct A as (<- & <- & _).
  exact (scheme_ghosts_names _ _ _ _ _ H).
Qed.
Print Assumptions C77_ghost_cells.

(** The ghost layer suffices, except in the unsuited combinations. *)
Theorem C77_suited : forall gamma eq fl rcn f r s,
  asks eq fl rcn f r -> create_scheme gamma eq fl rcn = Ok s ->
  (compatible (sc_flux s) (sc_recon s) (scheme_ghosts s) <-> unsuited f r = false).
Proof.
  intros gamma eq fl rcn f r s A H. apply asks_iff in A. destruct A as (<- & <- & _).
  exact (scheme_compatible _ _ _ _ _ H).
Qed.
Print Assumptions C77_suited.

(** The unsuited combinations of the Burgers equation; eight of 72. *)
Example C77_unsuited_example :
  filter (fun p => unsuited (fst p) (snd p)) (list_prod (flux_names "burgers") (recon_names "burgers")) =
  [("tecno4", "eno3"); ("tecno4", "eno4"); ("tecno4", "weno3");
   ("godunov4", "eno3"); ("godunov4", "eno4"); ("godunov4", "weno3");
   ("tecno6", "eno4"); ("godunov6", "eno4")]%string.
Proof. reflexivity. Qed.

(** With the others the computed right hand side is that of the cell values, whatever
    the work arrays hold. *)
Theorem C77_right_hand_side_partial : forall gamma eq fl rcn f r s dims nx ny nz (u : vol (sc_vars s)) w,
  asks eq fl rcn f r -> create_scheme gamma eq fl rcn = Ok s -> unsuited f r = false ->
  1 <= dims <= 3 -> 0 < nx -> 0 < ny -> 0 < nz ->
  let g := scheme_ghosts s in
  ext dims g nx ny nz u -> ext_state dims g nx ny nz w ->
  exists w', compute_flux dims g (sc_flux s) (sc_recon s) u (fun _ => 0) (fun _ => 0) w = Ok w' /\
    (forall c, interior dims g nx ny nz c ->
       vget (f_out w') c = rhs dims (sc_flux s) (sc_recon s) (vget u) c) /\
    is_wave_speed dims g nx ny nz (sc_flux s) (sc_recon s) (vget u) (f_speed w').
Proof.
  intros gamma eq fl rcn f r s dims nx ny nz u w A H Hu Hd Hx Hy Hz g Eu Ew.
  apply (C77_suited _ _ _ _ _ _ _ A H) in Hu.
  destruct (compute_top dims g (sc_flux s) (sc_recon s) nx ny nz Hd Hu Hx Hy Hz u w Eu Ew) as (w' & E & _ & I & _ & W).
  exists w'. auto.
Qed.
Print Assumptions C77_right_hand_side_partial.

(** ** Unsuited combinations *)

(** A wide flux works on the array `left` of reconstructed values, and this is the
    whole story: where the reconstruction does not reach, it sees what the array held
    (values of another direction, of another call, or the initial 0). *)
Theorem C77_wide_right_hand_side : forall gamma eq fl rcn f r s dims nx ny nz (u : vol (sc_vars s)) w,
  asks eq fl rcn f r -> create_scheme gamma eq fl rcn = Ok s -> 2 < flux_points f ->
  1 <= dims <= 3 -> 0 < nx -> 0 < ny -> 0 < nz ->
  let g := scheme_ghosts s in
  ext dims g nx ny nz u -> ext_state dims g nx ny nz w ->
  let field d := seen dims (sc_recon s) (total u) (vget u) (vget (f_left w)) (Z.to_nat d) in
  exists w', compute_flux dims g (sc_flux s) (sc_recon s) u (fun _ => 0) (fun _ => 0) w = Ok w' /\
    ext_state dims g nx ny nz w' /\
    (forall c, interior dims g nx ny nz c -> vget (f_out w') c = rhs_of dims (sc_flux s) field c) /\
    (forall d, 0 <= d < dims ->
       let faces c := interior dims g nx ny nz c \/ interior dims g nx ny nz (move d 1 c) in
       let speed c := snd (iface (sc_flux s) no_reconstruction d (field d) c) in
       (0 <= f_speed w' d)%R /\ (forall c, faces c -> (speed c <= f_speed w' d)%R) /\
       (f_speed w' d = 0%R \/ exists c, faces c /\ f_speed w' d = speed c)) /\
    (forall c, in_volume dims g nx ny nz c -> vget (f_left w') c = field (dims - 1) c).
Proof.
  intros gamma eq fl rcn f r s dims nx ny nz u w A H Hp Hd Hx Hy Hz g Eu Ew field.
  pose proof (C77_ghost_cells _ _ _ _ _ _ _ A H) as Hg. fold g in Hg.
  apply asks_iff in A. destruct A as (<- & <- & _). pose proof (scheme_shape _ _ _ _ _ H) as S. cbv zeta in S.
  destruct S as [Sr [[S _] | [P [h S]]]]; [lia|].
  pose proof (recon_reach_range (trim rcn)) as Rr. rewrite <- Sr in *.
  destruct (wide_flux dims g (points_list (flux_points (to_lower fl))) h (sc_recon s) nx ny nz)
    with (u := u) (s := w) as (w' & E & D & O & W & L); auto; [lia| |].
  { intros z Hz'. rewrite points_In in Hz' by exact P.
    destruct P as [P | P]; rewrite P in *; [change (4 / 2) with 2 in *|change (6 / 2) with 3 in *]; lia. }
  rewrite <- S in *. exists w'. split; [exact E|]. split; [exact D|]. split; [exact O|]. split; [|exact L].
  intros d Hdd. exact (W d Hdd (f_speed w') Logic.eq_refl).
Qed.
Print Assumptions C77_wide_right_hand_side.

(** *** Burgers *)

(** Linear data are reconstructed exactly. *)
Open Scope R_scope.
Definition linear_exact (rc : recon scalar_cvars) : Prop :=
  forall a b : R, rec_fun rc (map (fun j => a + b * IZR j) (zrange (- (rec_ghosts rc - 1)) (rec_ghosts rc))) = (a - b / 2, a + b / 2).
Lemma linear_averages a b lo hi : poly_averages [a; b] (- / 2) 1 lo hi (fun j => a + b * IZR j).
Proof.
  exists (anti5 0 a b 0 0 0). split.
  - intros x. replace (peval [a; b] x) with (peval [a; b; 0; 0; 0] x) by (cbn; ring). apply anti5_deriv.
  - intros j _. unfold anti5. field.
Qed.
Lemma pair_from_comps (p : scalar_cvars * scalar_cvars) (x y : R) :
  comp 0 (fst p) = x -> comp 0 (snd p) = y -> p = (x, y).
Proof. destruct p as [p q]. cbn. now intros -> ->. Qed.
Lemma minmod2_same b : minmod2 b b = b.
Proof.
  unfold minmod2. destruct (Req_EM_T (sign b) (sign b)) as [_|H]; [|congruence]. rewrite Rmin_left by lra.
  unfold sign. destruct (Rgt_dec b 0); [rewrite Rabs_right by lra; ring|].
  destruct (Req_EM_T b 0); [lra|]. rewrite Rabs_left by lra. ring.
Qed.
Lemma sign_double b : sign (2 * b) = sign b.
Proof.
  unfold sign. destruct (Rgt_dec (2 * b) 0), (Rgt_dec b 0); try lra.
  destruct (Req_EM_T (2 * b) 0), (Req_EM_T b 0); lra.
Qed.
Lemma minmod3_linear b : minmod3 (2 * b) b (2 * b) = b.
Proof.
  unfold minmod3. rewrite sign_double. destruct (Req_EM_T (sign b) (sign b)) as [_|H]; [|congruence].
  assert (Rabs (2 * b) = 2 * Rabs b) as -> by (rewrite Rabs_mult, (Rabs_right 2) by lra; ring).
  pose proof (Rabs_pos b). rewrite (Rmin_left (Rabs b)) by lra. rewrite Rmin_right by lra.
  unfold sign. destruct (Rgt_dec b 0); [rewrite Rabs_right by lra; ring|].
  destruct (Req_EM_T b 0); [rewrite e; ring|]. rewrite Rabs_left by lra. ring.
Qed.

Theorem C77_linear_exact : forall gamma r rc,
  r <> "none"%string -> find_recon (Scalar Burgers) gamma r = Some rc -> linear_exact rc.
Proof.
  intros gamma r rc Hn H a b. unfold find_recon in H.
  assert (Eno : forall k, (2 <= k <= 4)%nat -> linear_exact (eno_recon (V := scalar_cvars) k (comp 0))).
  { intros k Hk a' b'. pose proof (C43_exact scalar_cvars k (comp 0) (fun j => a' + b' * IZR j) 0 [a'; b'] (- / 2) 1 Hk) as C.
    cbn [rec_ghosts eno_recon]. destruct C as [C1 C2]; [cbn; lia|lra|apply linear_averages|].
    apply pair_from_comps; [refine (eq_trans C1 _)|refine (eq_trans C2 _)]; cbn [peval]; lra. }
  assert (Weno : forall k rc', weno_of (V := scalar_cvars) k (comp 0) rc' -> rec_ghosts rc' = Z.of_nat k -> linear_exact rc').
  { intros k rc' Hw Hk a' b'. destruct (weno_of_spec _ _ _ _ (fun _ => (0 : scalar_cvars)) Hw) as [K _].
    pose proof (C44_linear_limit scalar_cvars k (comp 0) rc' (fun j => a' + b' * IZR j) (b' * b') 0 [a'; b'] (- / 2) 1 Hw) as C.
    rewrite Hk. destruct C as [C1 C2]; [cbn; lia|lra| |apply linear_averages|].
    - intros s Hs. assert (k = 2 \/ k = 3)%nat as [-> | ->] by lia;
      (destruct s as [|[|[|s]]]; [| | |lia]); cbn; try lia; try field.
    - apply pair_from_comps; [refine (eq_trans C1 _)|refine (eq_trans C2 _)]; cbn [peval]; lra. }
  destruct (String.eqb_spec r "none"); [congruence|].
  destruct (String.eqb r "eno2"); [injection H as <-; apply Eno; lia|].
  destruct (String.eqb r "eno3"); [injection H as <-; apply Eno; lia|].
  destruct (String.eqb r "eno4"); [injection H as <-; apply Eno; lia|].
  destruct (String.eqb r "weno2"); [injection H as <-; apply (Weno 2%nat); [left; auto|reflexivity]|].
  destruct (String.eqb r "weno3"); [injection H as <-; apply (Weno 3%nat); [right; auto|reflexivity]|].
  destruct (String.eqb r "wenof2"); [discriminate|].
  destruct (String.eqb r "mc"); [|destruct (String.eqb r "mm"); [|discriminate]]; injection H as <-.
  - cbn [rec_ghosts limiter_recon rec_fun]. change (zrange (- (2 - 1)) 2) with [-1; 0; 1]%Z. cbn [map].
    cbn [lift3 scalar_lifting]. unfold face_left, face_right.
    replace (mc_slope (a + b * -1) (a + b * 0) (a + b * 1)) with b; [f_equal; lra|].
    symmetry. unfold mc_slope. transitivity (minmod3 (2 * b) b (2 * b)); [f_equal; field|apply minmod3_linear].
  - cbn [rec_ghosts limiter_recon rec_fun]. change (zrange (- (2 - 1)) 2) with [-1; 0; 1]%Z. cbn [map].
    cbn [lift3 scalar_lifting]. unfold face_left, face_right.
    replace (mm_slope (a + b * -1) (a + b * 0) (a + b * 1)) with b; [f_equal; lra|].
    symmetry. unfold mm_slope. transitivity (minmod2 b b); [f_equal; ring|apply minmod2_same].
Qed.
Print Assumptions C77_linear_exact.

Lemma burgers_scheme gamma fl rcn f r : asks "burgers" fl rcn f r ->
  exists fx rc, create_scheme gamma "burgers" fl rcn = Ok (mkscheme scalar_cvars fx rc) /\
    find_recon (Scalar Burgers) gamma r = Some rc /\ rec_ghosts rc = recon_reach r /\
    (2 < flux_points f -> exists n,
      (flux_points f = 4 /\ fx = combined4 (scalar_flux Burgers n)) \/
      (flux_points f = 6 /\ fx = combined6 (scalar_flux Burgers n)))%Z /\
    (f = "godunov4"%string -> fx = combined4 (scalar_flux Burgers Godunov)) /\
    (f = "godunov6"%string -> fx = combined6 (scalar_flux Burgers Godunov)).
Proof.
  intros A. apply asks_iff in A. destruct A as (Ef & <- & If & Ir).
  assert (E : last_match "burgers" equations = Some (Scalar Burgers)) by reflexivity.
  pose proof If as If'. rewrite <- Ef in If'.
  apply (find_flux_some _ _ gamma fl E) in If'. apply (find_recon_some _ _ gamma _ E) in Ir.
  destruct If' as [fx Hf], Ir as [rc Hr]. exists fx, rc.
  split; [|split; [exact Hr|split; [now apply find_recon_reach in Hr|]]].
  - unfold create_scheme. rewrite E, Hr, Hf. reflexivity.
  - cbn [find_flux] in Hf. rewrite Ef in Hf.
    split; [|split; intros ->; cbn in Hf; now injection Hf as <-]. unfold flux_names in If. cbn in If.
    repeat (destruct If as [<- | If]; [cbn in Hf |- *; intros Hp; try discriminate;
      injection Hf as <-; eexists; first [left; split; reflexivity|right; split; reflexivity]|]). destruct If.
Qed.

(** With a reconstruction the wide fluxes see the values at the left ends of the
    cells only: on linear data the flux is the one of the data moved by half a cell. *)
Theorem C77_half_cell : forall gamma fl rcn f r,
  asks "burgers" fl rcn f r -> (2 < flux_points f)%Z -> r <> "none"%string ->
  exists fx rc, create_scheme gamma "burgers" fl rcn = Ok (mkscheme scalar_cvars fx rc) /\
    forall d (u u' : cell -> scalar_cvars) c a b, dir d ->
      (forall j, u (move d j c) = a + b * IZR j) ->
      (forall j, u' (move d j c) = a + b * (IZR j - 1 / 2)) ->
      iface fx rc d u c = iface fx no_reconstruction d u' c.
Proof.
  intros gamma fl rcn f r A Hp Hn. destruct (burgers_scheme gamma _ _ _ _ A) as (fx & rc & E & Hr & _ & Hf & _).
  exists fx, rc. split; [exact E|]. intros d u u' c a b Hd Hu Hu'.
  assert (K : forall s, fst (rec_at rc d u (move d s c)) = fst (rec_at no_reconstruction d u' (move d s c))).
  { intros s. unfold rec_at at 2. cbn [rec_ghosts no_reconstruction rec_fun]. change (zrange (- (1 - 1)) 1) with [0%Z].
    cbn [map]. rewrite move_0. cbn [fst]. rewrite Hu'. unfold rec_at.
    rewrite (map_ext _ (fun j => (a + b * IZR s) + b * IZR j)).
    2:{ intros j. rewrite move_move, Hu, plus_IZR. 
        match goal with |- @Logic.eq _ ?x ?y => change (@Logic.eq R x y) end. ring. }
    rewrite (C77_linear_exact gamma r rc Hn Hr). cbn [fst].
    match goal with |- @Logic.eq _ ?x ?y => change (@Logic.eq R x y) end. lra. }
  destruct (Hf Hp) as [n [[_ ->] | [_ ->]]]; unfold iface, combined4, combined6; cbn [map]; now rewrite !K.
Qed.
Print Assumptions C77_half_cell.

(** *** Constant states *)

Definition god (l r : R) : R := flux_value Burgers Godunov l r.
Definition god4 (a b c d : R) : R := 4 / 3 * god b c - 1 / 6 * (god a c + god b d).
Definition god6 (a b c d e f : R) : R :=
  3 / 2 * god c d - 3 / 10 * (god b d + god c e) + 1 / 30 * (god a d + god b e + god c f).
Lemma rec_at_none d (u : cell -> scalar_cvars) c : fst (rec_at no_reconstruction d u c) = u c.
Proof.
  unfold rec_at. cbn [rec_ghosts no_reconstruction rec_fun]. change (zrange (- (1 - 1)) 1) with [0%Z].
  cbn [map]. now rewrite move_0.
Qed.
Lemma iface_god4 d (v : cell -> scalar_cvars) c :
  fst (iface (combined4 (scalar_flux Burgers Godunov)) no_reconstruction d v c) =
  god4 (v (move d (-1) c)) (v (move d 0 c)) (v (move d 1 c)) (v (move d 2 c)).
Proof.
  unfold iface, combined4. cbn [map]. rewrite !rec_at_none. unfold scalar_flux. cbn [fst].
  match goal with |- @Logic.eq _ ?a ?b => change (@Logic.eq R a b) end. unfold god4, god. cbn. ring.
Qed.
Lemma iface_god6 d (v : cell -> scalar_cvars) c :
  fst (iface (combined6 (scalar_flux Burgers Godunov)) no_reconstruction d v c) =
  god6 (v (move d (-2) c)) (v (move d (-1) c)) (v (move d 0 c)) (v (move d 1 c)) (v (move d 2 c)) (v (move d 3 c)).
Proof.
  unfold iface, combined6. cbn [map]. rewrite !rec_at_none. unfold scalar_flux. cbn [fst].
  match goal with |- @Logic.eq _ ?a ?b => change (@Logic.eq R a b) end. unfold god6, god. cbn. ring.
Qed.
Lemma god_const k : 0 <= k -> god k k = k * k / 2.
Proof.
  intros H. unfold god, flux_value, point_flux. rewrite (Rmax_left k 0), (Rmin_right k 0) by lra. apply Rmax_left. nra.
Qed.
Lemma god_0 k : 0 <= k -> god 0 k = 0.
Proof.
  intros H. unfold god, flux_value, point_flux. rewrite (Rmax_left 0 0), (Rmin_right k 0) by lra. rewrite Rmax_left; lra.
Qed.

Lemma rec_const gamma r rc d (u : cell -> scalar_cvars) (k : R) c :
  find_recon (Scalar Burgers) gamma r = Some rc -> (forall c, u c = k) -> rec_at rc d u c = (k, k).
Proof.
  intros Hr Hu. unfold rec_at. destruct (String.eqb_spec r "none") as [->|Hn].
  - injection Hr as <-. cbn [rec_ghosts no_reconstruction rec_fun]. change (zrange (- (1 - 1)) 1) with [0%Z].
    cbn [map]. now rewrite Hu.
  - rewrite (map_ext _ (fun j => k + 0 * IZR j)).
    2:{ intros j. rewrite Hu. match goal with |- @Logic.eq _ ?x ?y => change (@Logic.eq R x y) end. ring. }
    rewrite (C77_linear_exact gamma r rc Hn Hr). f_equal; lra.
Qed.

(** A constant state has no right hand side. *)
Lemma rhs_constant gamma r fx rc dims (k : R) (u : cell -> scalar_cvars) c :
  find_recon (Scalar Burgers) gamma r = Some rc -> (forall c, u c = k) -> rhs dims fx rc u c = 0.
Proof.
  intros Hr Hu.
  assert (I : forall d, iface fx rc d u (move d (-1) c) = iface fx rc d u c).
  { intros d. unfold iface. destruct fx as [h|st h].
    - now rewrite !(rec_const gamma r rc d u k _ Hr Hu).
    - f_equal. apply map_ext. intros t. now rewrite !(rec_const gamma r rc d u k _ Hr Hu). }
  unfold rhs. assert (G : forall l (a : scalar_cvars), a = 0 -> fold_left (fun a d =>
      vadd a (vadd (fst (iface fx rc d u (move d (-1) c))) (vscal (-1) (fst (iface fx rc d u c))))) l a = 0).
  { induction l as [|d l IH]; intros a Ha; [exact Ha|]. cbn [fold_left]. apply IH. rewrite I, Ha.
    match goal with |- @Logic.eq _ ?x ?y => change (@Logic.eq R x y) end. cbn. ring. }
  apply G. reflexivity.
Qed.

(** Godunov4 and Godunov6 with an unsuited reconstruction on a constant state k > 0 in
    one dimension, in a new simulator: the first cell sees zeros. *)
Theorem C77_unsuited_refuted : forall gamma fl rcn f r nx ny nz (k : R),
  asks "burgers" fl rcn f r -> In f ["godunov4"; "godunov6"]%string -> unsuited f r = true ->
  (2 <= nx)%Z -> (0 < ny)%Z -> (0 < nz)%Z -> 0 < k ->
  exists fx rc, create_scheme gamma "burgers" fl rcn = Ok (mkscheme scalar_cvars fx rc) /\
    let g := scheme_ghosts (mkscheme scalar_cvars fx rc) in
    forall u out : vol scalar_cvars, ext 1 g nx ny nz u -> ext 1 g nx ny nz out -> (forall c, vget u c = k) ->
    rhs 1 fx rc (vget u) (g, 0, 0)%Z = 0 /\
    exists w, compute_flux 1 g fx rc u (fun _ => 0%Z) (fun _ => 0%Z) (fresh_work (V := scalar_cvars) 42 u out) = Ok w /\
      vget (f_out w) (g, 0, 0)%Z = if String.eqb f "godunov4" then k * k / 12 else - (k * k / 60).
Proof.
  intros gamma fl rcn f r nx ny nz k A Hgod U Hx Hy Hz Hk.
  destruct (burgers_scheme gamma _ _ _ _ A) as (fx & rc & E & Hr & Hrr & _ & Hf4 & Hf6).
  exists fx, rc. split; [exact E|]. intros g u out Eu Eo Hu.
  split; [exact (rhs_constant gamma r fx rc 1 k (vget u) _ Hr Hu)|].
  pose proof (C77_ghost_cells _ _ _ _ _ _ _ A E) as Hg. fold g in Hg.
  unfold unsuited in U. apply andb_true_iff in U. destruct U as [U1 U2]. apply Z.ltb_lt in U1, U2.
  pose proof (recon_reach_range r) as Rr.
  assert (Ef : ext_state 1 g nx ny nz (fresh_work (V := scalar_cvars) 42 u out)) by (repeat split; first [apply Eu|apply Eo]).
  destruct (C77_wide_right_hand_side gamma "burgers" fl rcn f r (mkscheme scalar_cvars fx rc) 1 nx ny nz u _ A E U1
     ltac:(lia) ltac:(lia) Hy Hz Eu Ef) as (w & W1 & _ & W2 & _).
  exists w. split; [exact W1|]. fold g in W2. cbn [sc_vars sc_flux sc_recon] in *.
  rewrite W2 by (cbn; unfold interior1; lia).
  set (field := fun d => _) in W2 |- *.
  assert (Ht : (total u 0 = nx + 2 * g /\ total u 1 = ny /\ total u 2 = nz)%Z).
  { destruct Eu as (E1 & E2 & E3). unfold total. cbn [Z.eqb Pos.eqb]. rewrite E1, E2, E3. unfold ghost. cbn. lia. }
  destruct Ht as (T0 & T1 & T2).
  assert (F : forall x, field 0%Z (x, 0, 0)%Z = if ((recon_reach r - 1 <=? x) && (x <? nx + 2 * g - (recon_reach r - 1)))%Z then k else 0).
  { intros x. unfold field. cbn [seen Z.to_nat Z.of_nat]. rewrite (rec_const gamma r rc 0 (vget u) k _ Hr Hu). cbn [fst].
    replace (reconstructed 1 (rec_ghosts rc) (rec_all rc) (total u) 0 (x, 0, 0)%Z)
      with ((recon_reach r - 1 <=? x) && (x <? nx + 2 * g - (recon_reach r - 1)))%Z; [reflexivity|].
    unfold reconstructed. cbn [forallb along Z.eqb Pos.eqb Z.ltb Z.compare Pos.compare Pos.compare_cont].
    rewrite Hrr, T0, T1, T2.
    replace (if rec_all rc then 0%Z else 0%Z) with 0%Z by (destruct (rec_all rc); reflexivity).
    destruct (Z.ltb_spec 0 (ny - 0)%Z); [|lia]. destruct (Z.ltb_spec 0 (nz - 0)%Z); [|lia]. cbn. now rewrite !andb_true_r. }
  assert (Fk : forall x, (recon_reach r - 1 <= x < nx + 2 * g - (recon_reach r - 1))%Z -> field 0%Z (x, 0, 0)%Z = k).
  { intros x Hxx. rewrite F. destruct (Z.leb_spec (recon_reach r - 1) x); [|lia].
    destruct (Z.ltb_spec x (nx + 2 * g - (recon_reach r - 1))); [reflexivity|lia]. }
  assert (F0 : forall x, (x < recon_reach r - 1)%Z -> field 0%Z (x, 0, 0)%Z = 0).
  { intros x Hxx. rewrite F. destruct (Z.leb_spec (recon_reach r - 1) x); [lia|]. reflexivity. }
  unfold rhs_of. change (zrange 0 1) with [0%Z]. cbn [fold_left].
  destruct Hgod as [<- | [<- | []]].
  - rewrite (Hf4 Logic.eq_refl). rewrite !iface_god4. cbn [move Z.eqb].
    change (flux_points "godunov4") with 4%Z in *. change (4 / 2)%Z with 2%Z in U2.
    rewrite (F0 (g + -1 + -1)%Z) by lia. rewrite !Fk by lia. cbn [String.eqb Ascii.eqb Bool.eqb].
    match goal with |- @Logic.eq _ ?x ?y => change (@Logic.eq R x y) end. cbn. unfold god4.
    rewrite !god_const, !god_0 by lra. field.
  - rewrite (Hf6 Logic.eq_refl). rewrite !iface_god6. cbn [move Z.eqb].
    change (flux_points "godunov6") with 6%Z in *. change (6 / 2)%Z with 3%Z in U2.
    rewrite (F0 (g + -1 + -2)%Z) by lia. rewrite !Fk by lia. cbn [String.eqb Ascii.eqb Bool.eqb].
    match goal with |- @Logic.eq _ ?x ?y => change (@Logic.eq R x y) end. cbn. unfold god6.
    rewrite !god_const, !god_0 by lra. field.
Qed.
Print Assumptions C77_unsuited_refuted.

Example C77_unsuited_cases :
  forall p, In p [("godunov4", "eno3"); ("godunov4", "eno4"); ("godunov4", "weno3"); ("godunov6", "eno4")]%string ->
    asks "burgers" (fst p) (snd p) (fst p) (snd p) /\ unsuited (fst p) (snd p) = true.
Proof.
  intros p Hp. cbn [In] in Hp.
  repeat (destruct Hp as [<- | Hp]; [split; [apply asks_iff; vm_compute; tauto|reflexivity]|]). destruct Hp.
Qed.

(** One of them in numbers. *)
Theorem C77_right_hand_side_refuted : exists fx rc (u out : vol scalar_cvars) w c,
  create_scheme 0 "burgers" "godunov4" "eno3" = Ok (mkscheme scalar_cvars fx rc) /\
  let g := scheme_ghosts (mkscheme scalar_cvars fx rc) in
  ext 1 g 2 1 1 u /\ ext 1 g 2 1 1 out /\ interior 1 g 2 1 1 c /\
  compute_flux 1 g fx rc u (fun _ => 0%Z) (fun _ => 0%Z) (fresh_work (V := scalar_cvars) 42 u out) = Ok w /\
  vget (f_out w) c = 3 /\ rhs 1 fx rc (vget u) c = 0.
Proof.
  assert (A : asks "burgers" "godunov4" "eno3" "godunov4" "eno3") by (apply asks_iff; vm_compute; tauto).
  destruct (C77_unsuited_refuted 0 _ _ _ _ 2 1 1 6 A ltac:(cbn; auto) ltac:(reflexivity) ltac:(lia) ltac:(lia) ltac:(lia) ltac:(lra))
    as (fx & rc & E & H). cbv zeta in H.
  set (u := mkvol 8 1 1 (fun _ => (6 : scalar_cvars))).
  assert (Hu : forall c, vget u c = 6) by (intros [[? ?] ?]; reflexivity).
  pose proof (C77_ghost_cells _ _ _ _ _ _ _ A E) as G. change (Z.max (flux_points "godunov4" - 1) (recon_reach "eno3")) with 3%Z in G. rewrite G in H.
  assert (Eu : ext 1 3 2 1 1 u) by (repeat split).
  destruct (H u u Eu Eu Hu) as (Z & w & Hw & Hv).
  exists fx, rc, u, u, w, (3, 0, 0)%Z. split; [exact E|]. cbv zeta. rewrite G. split; [exact Eu|]. split; [exact Eu|].
  split; [cbn; unfold interior1; lia|]. split; [exact Hw|]. split; [|exact Z].
  refine (eq_trans Hv _). cbn [String.eqb Ascii.eqb Bool.eqb]. match goal with |- @Logic.eq _ ?x ?y => change (@Logic.eq R x y) end. lra.
Qed.
Print Assumptions C77_right_hand_side_refuted.

(** Godunov4 with WENO3 in two dimensions, constant state k > 0: two computations for the
    same cell values, one after the other, differ; the second finds the values that the
    reconstruction in y of the first has left behind. *)
Theorem C77_history_refuted : forall nx ny (k : R), (2 <= nx)%Z -> (2 <= ny)%Z -> 0 < k ->
  exists fx rc, create_scheme 0 "burgers" "godunov4" "weno3" = Ok (mkscheme scalar_cvars fx rc) /\
    let g := scheme_ghosts (mkscheme scalar_cvars fx rc) in
    forall u out : vol scalar_cvars, ext 2 g nx ny 1 u -> ext 2 g nx ny 1 out -> (forall c, vget u c = k) ->
    exists w w', compute_flux 2 g fx rc u (fun _ => 0%Z) (fun _ => 0%Z) (fresh_work (V := scalar_cvars) 42 u out) = Ok w /\
      compute_flux 2 g fx rc u (fun _ => 0%Z) (fun _ => 0%Z) w = Ok w' /\
      vget (f_out w) (g, g, 0)%Z = k * k / 12 /\ vget (f_out w') (g, g, 0)%Z = 0 /\
      rhs 2 fx rc (vget u) (g, g, 0)%Z = 0.
Proof.
  intros nx ny k Hx Hy Hk.
  assert (A : asks "burgers" "godunov4" "weno3" "godunov4" "weno3") by (apply asks_iff; vm_compute; tauto).
  set (fx := combined4 (scalar_flux Burgers Godunov)). set (rc := weno_recon (V := scalar_cvars) 3 (comp 0)).
  assert (E : create_scheme 0 "burgers" "godunov4" "weno3" = Ok (mkscheme scalar_cvars fx rc)) by reflexivity.
  assert (Hr : find_recon (Scalar Burgers) 0 "weno3" = Some rc) by reflexivity.
  exists fx, rc. split; [exact E|]. intros g. change g with 3%Z. clear g. intros u out Eu Eo Hu.
  assert (Ef : ext_state 2 3 nx ny 1 (fresh_work (V := scalar_cvars) 42 u out)) by (repeat split; first [apply Eu|apply Eo]).
  destruct (C77_wide_right_hand_side 0 "burgers" "godunov4" "weno3" "godunov4" "weno3" (mkscheme scalar_cvars fx rc) 2 nx ny 1 u _ A E
     ltac:(vm_compute; reflexivity) ltac:(lia) ltac:(lia) ltac:(lia) ltac:(lia) Eu Ef) as (w & W1 & Ew & W2 & _ & W3).
  destruct (C77_wide_right_hand_side 0 "burgers" "godunov4" "weno3" "godunov4" "weno3" (mkscheme scalar_cvars fx rc) 2 nx ny 1 u _ A E
     ltac:(vm_compute; reflexivity) ltac:(lia) ltac:(lia) ltac:(lia) ltac:(lia) Eu Ew) as (w' & W1' & _ & W2' & _).
  change (scheme_ghosts (mkscheme scalar_cvars fx rc)) with 3%Z in *. cbn [sc_vars sc_flux sc_recon] in *.
  exists w, w'. split; [exact W1|]. split; [exact W1'|].
  rewrite <- and_assoc. split; [|exact (rhs_constant 0 "weno3" fx rc 2 k (vget u) _ Hr Hu)].
  assert (Ht : (total u 0 = nx + 6 /\ total u 1 = ny + 6 /\ total u 2 = 1)%Z).
  { destruct Eu as (E1 & E2 & E3). unfold total. cbn [Z.eqb Pos.eqb]. rewrite E1, E2, E3. unfold ghost. cbn. lia. }
  destruct Ht as (T0 & T1 & T2).
  assert (S0 : forall old x y, seen 2 rc (total u) (vget u) old 0 (x, y, 0)%Z =
     if ((2 <=? x) && (x <? nx + 4) && ((0 <=? y) && (y <? ny + 6)))%Z then k else old (x, y, 0)%Z).
  { intros old x y. cbn [seen]. rewrite (rec_const 0 "weno3" rc _ (vget u) k _ Hr Hu). cbn [fst].
    unfold reconstructed. cbn [forallb along Z.eqb Pos.eqb Z.ltb Z.compare Pos.compare Pos.compare_cont rec_all rc weno_recon rec_ghosts Z.of_nat Pos.of_succ_nat Pos.succ Nat.of_num_uint].
    rewrite T0, T1, T2. change (3 - 1)%Z with 2%Z. replace (nx + 6 - 2)%Z with (nx + 4)%Z by lia. replace (ny + 6 - 0)%Z with (ny + 6)%Z by lia.
    cbn. rewrite !andb_true_r. reflexivity. }
  assert (S1 : forall old x y, seen 2 rc (total u) (vget u) old 1 (x, y, 0)%Z =
     if ((0 <=? x) && (x <? nx + 6) && ((2 <=? y) && (y <? ny + 4)))%Z then k else seen 2 rc (total u) (vget u) old 0 (x, y, 0)%Z).
  { intros old x y. cbn [seen]. rewrite (rec_const 0 "weno3" rc _ (vget u) k _ Hr Hu). cbn [fst].
    unfold reconstructed at 1. cbn [forallb along Z.eqb Pos.eqb Z.ltb Z.compare Pos.compare Pos.compare_cont rec_all rc weno_recon rec_ghosts Z.of_nat Pos.of_succ_nat Pos.succ].
    rewrite T0, T1, T2. change (3 - 1)%Z with 2%Z. replace (nx + 6 - 0)%Z with (nx + 6)%Z by lia. replace (ny + 6 - 2)%Z with (ny + 4)%Z by lia.
    cbn -[seen reconstructed]. rewrite !andb_true_r. reflexivity. }
  assert (B : forall a b c d : Z, (a <= b < c)%Z -> ((a <=? b) && (b <? c))%Z = true).
  { intros a b c _ H. destruct (Z.leb_spec a b); [|lia]. destruct (Z.ltb_spec b c); [reflexivity|lia]. }
  assert (A0 : forall old x, (2 <= x < nx + 4)%Z -> seen 2 rc (total u) (vget u) old 0 (x, 3, 0)%Z = k).
  { intros old x Hxx. rewrite S0, !B by (auto; lia). reflexivity. }
  assert (A1 : forall old y, (1 <= y <= 5)%Z -> seen 2 rc (total u) (vget u) old 1 (3, y, 0)%Z = k).
  { intros old y Hyy. rewrite S1. rewrite (B 0 3 (nx + 6) 0)%Z by lia.
    destruct (((2 <=? y) && (y <? ny + 4))%Z); [reflexivity|]. cbn [andb]. rewrite S0, !B by (auto; lia). reflexivity. }
  assert (A2 : seen 2 rc (total u) (vget u) (vget (f_left (fresh_work (V := scalar_cvars) 42 u out))) 0 (1, 3, 0)%Z = 0).
  { rewrite S0. reflexivity. }
  assert (A3 : seen 2 rc (total u) (vget u) (vget (f_left w)) 0 (1, 3, 0)%Z = k).
  { rewrite S0. change ((2 <=? 1)%Z) with false. cbn [andb]. rewrite W3.
    - change (Z.to_nat (2 - 1)) with 1%nat. rewrite S1, !B by (auto; lia). reflexivity.
    - cbn. lia. }
  rewrite W2, W2' by (cbn; unfold interior1; lia).
  unfold rhs_of. change (zrange 0 2) with [0%Z; 1%Z]. cbn [fold_left]. rewrite !iface_god4. cbn [move Z.eqb Pos.eqb].
  change (Z.to_nat 0) with 0%nat. change (Z.to_nat 1) with 1%nat.
  change (3 + -1 + -1)%Z with 1%Z. change (3 + -1 + 0)%Z with 2%Z. change (3 + -1 + 1)%Z with 3%Z. change (3 + -1 + 2)%Z with 4%Z.
  change (3 + -1)%Z with 2%Z. change (3 + 0)%Z with 3%Z. change (3 + 1)%Z with 4%Z. change (3 + 2)%Z with 5%Z.
  rewrite A2, A3, !A0, !A1 by lia.
  split; match goal with |- @Logic.eq _ ?x ?y => change (@Logic.eq R x y) end; cbn; unfold god4;
    rewrite ?god_const, ?god_0 by lra; field.
Qed.
Print Assumptions C77_history_refuted.

(** The Burgers equation is the same when x is replaced by -x and u by -u.  For
    u(x) = x, which is its own mirror image, Godunov4 with the minmod limiter has the flux
    0 on the right of the cell 0 and 7/48 on its left; without reconstruction both are 0. *)
Theorem C77_mirror_refuted : exists fx fx0 rc (u : cell -> scalar_cvars),
  create_scheme 0 "burgers" "godunov4" "mm" = Ok (mkscheme scalar_cvars fx rc) /\
  create_scheme 0 "burgers" "godunov4" "none" = Ok (mkscheme scalar_cvars fx0 no_reconstruction) /\
  (forall x y z, u (- x, y, z)%Z = - u (x, y, z)) /\
  fst (iface fx rc 0 u (0, 0, 0)%Z) = 0 /\ fst (iface fx rc 0 u (-1, 0, 0)%Z) = 7 / 48 /\
  fst (iface fx0 no_reconstruction 0 u (0, 0, 0)%Z) = 0 /\
  fst (iface fx0 no_reconstruction 0 u (-1, 0, 0)%Z) = 0.
Proof.
  set (fx := combined4 (scalar_flux Burgers Godunov)). set (rc := limiter_recon scalar_lifting mm_slope).
  set (u := fun c : cell => (IZR (coord 0 c) : scalar_cvars)).
  set (u' := fun c : cell => (IZR (coord 0 c) - 1 / 2 : scalar_cvars)).
  assert (A : asks "burgers" "godunov4" "mm" "godunov4" "mm") by (apply asks_iff; vm_compute; tauto).
  assert (E : create_scheme 0 "burgers" "godunov4" "mm" = Ok (mkscheme scalar_cvars fx rc)) by reflexivity.
  assert (Sh : forall x, iface fx rc 0 u (x, 0, 0)%Z = iface fx no_reconstruction 0 u' (x, 0, 0)%Z).
  { intros x.
    assert (K : forall s, fst (rec_at rc 0 u (move 0 s (x, 0, 0)%Z)) = u' (move 0 s (x, 0, 0)%Z)).
    { intros s. unfold rec_at. rewrite (map_ext _ (fun j => IZR (x + s) + 1 * IZR j)).
      2:{ intros j. unfold u. cbn [move coord Z.eqb]. rewrite !plus_IZR.
          match goal with |- @Logic.eq _ ?a ?b => change (@Logic.eq R a b) end. ring. }
      rewrite (C77_linear_exact 0 "mm" rc ltac:(discriminate) Logic.eq_refl). cbn [fst]. unfold u'. cbn [move coord Z.eqb].
      match goal with |- @Logic.eq _ ?a ?b => change (@Logic.eq R a b) end. lra. }
    unfold fx, iface, combined4. cbn [map]. rewrite !rec_at_none. now rewrite !K. }
  assert (If : forall (v : cell -> scalar_cvars) x, fst (iface fx no_reconstruction 0 v (x, 0, 0)%Z) =
     4 / 3 * flux_value Burgers Godunov (v (x + 0, 0, 0)%Z) (v (x + 1, 0, 0)%Z) -
     1 / 6 * (flux_value Burgers Godunov (v (x + -1, 0, 0)%Z) (v (x + 1, 0, 0)%Z) +
              flux_value Burgers Godunov (v (x + 0, 0, 0)%Z) (v (x + 2, 0, 0)%Z))).
  { intros v x. unfold fx, iface, combined4. cbn [map]. rewrite !rec_at_none. unfold scalar_flux. cbn [fst move Z.eqb].
    match goal with |- @Logic.eq _ ?a ?b => change (@Logic.eq R a b) end. cbn. ring. }
  assert (G0 : forall l r : R, l <= 0 -> 0 <= r -> flux_value Burgers Godunov l r = 0).
  { intros l r Hl Hr. unfold flux_value, point_flux. rewrite (Rmax_right l 0), (Rmin_right r 0) by lra. rewrite Rmax_left by lra. lra. }
  assert (G1 : forall l r : R, l <= 0 -> r <= 0 -> flux_value Burgers Godunov l r = r * r / 2).
  { intros l r Hl Hr. unfold flux_value, point_flux. rewrite (Rmax_right l 0), (Rmin_left r 0) by lra. apply Rmax_right. nra. }
  exists fx, fx, rc, u. split; [exact E|]. split; [reflexivity|]. split.
  { intros x y z. unfold u. cbn [coord Z.eqb]. apply opp_IZR. }
  rewrite !Sh, !If. unfold u, u'. cbn [coord Z.eqb]. 
  change (0 + 0)%Z with 0%Z. change (0 + 1)%Z with 1%Z. change (0 + -1)%Z with (-1)%Z. change (0 + 2)%Z with 2%Z.
  change (-1 + 0)%Z with (-1)%Z. change (-1 + 1)%Z with 0%Z. change (-1 + -1)%Z with (-2)%Z. change (-1 + 2)%Z with 1%Z.
  split; [|split; [|split]]; match goal with |- @Logic.eq _ ?a ?b => change (@Logic.eq R a b) end.
  - rewrite !G0 by lra. lra.
  - rewrite (G0 (-1 - 1 / 2) (1 - 1 / 2)), !G1 by lra. lra.
  - rewrite !G0 by lra. lra.
  - rewrite !G0 by lra. lra.
Qed.
Print Assumptions C77_mirror_refuted.
