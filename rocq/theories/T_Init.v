(** C76: the first state of a simulation. *)
From Coq Require Import ZArith List Bool Reals String Lia Lra.
From Verif Require Import M_Base L_Base M_Foreach L_Foreach M_Boundary S_Boundary T_Boundary M_Sim M_Mpi M_Init S_Mpi S_Init L_Decomp L_Match L_Init T_Mpi.
Import ListNotations.
Open Scope Z_scope.

(** * What the program sees *)

(** Without clashes the program of a sample sees its parameters, and what the libraries
    export. *)
Theorem C76_parameters_partial :
  forall math numpy configured sample ns,
  NoDup (names_of configured) -> NoDup (names_of sample) -> ~ clash math numpy configured sample ->
  sees (main_module math numpy (set_parameters configured sample) ns) configured sample /\
  (forall name v, numpy name = Some v -> main_module math numpy (set_parameters configured sample) ns name = Some v) /\
  (forall name v, numpy name = None -> math name = Some v -> main_module math numpy (set_parameters configured sample) ns name = Some v).
Proof.
  intros math numpy configured sample ns Hc Hs Hn.
  pose proof (set_parameters_NoDup sample configured Hc) as Hp. split; [|split].
  - intros name v Hg. apply given_iff in Hg; [|exact Hc|exact Hs].
    assert (E : main_module math numpy (set_parameters configured sample) ns name = Some (to_python v)).
    { rewrite module_find, Hg by exact Hp.
      assert (K : numpy name = None /\ math name = None); [|destruct K as (-> & ->); reflexivity].
      assert (I : In name (names_of configured ++ names_of sample)).
      { rewrite set_parameters_find in Hg by exact Hs. apply in_or_app. destruct (find_parameter sample name) as [w|] eqn:F.
        - right. apply find_In in F; [|exact Hs]. apply (in_map fst) in F. exact F.
        - left. apply find_In in Hg; [|exact Hc]. apply (in_map fst) in Hg. exact Hg. }
      destruct (numpy name) eqn:N1; [exfalso; apply Hn; exists name; split; [exact I|right; congruence]|].
      destruct (math name) eqn:N2; [exfalso; apply Hn; exists name; split; [exact I|left; congruence]|]. auto. }
    rewrite E. split; [intros x ->; reflexivity|]. destruct v as [|x [|y v]]; cbn; [reflexivity|lia|reflexivity].
  - intros name v N. rewrite module_find, N by exact Hp. reflexivity.
  - intros name v N1 N2. rewrite module_find, N1, N2 by exact Hp. reflexivity.
Qed.

(** Parameters of the configuration file are the given ones. *)
Lemma add_parameter_spec ps n v qs : NoDup (names_of ps) -> add_parameter ps n v = Ok qs ->
  NoDup (names_of qs) /\ forall m w, In (m, w) qs <-> In (m, w) ps \/ (m, w) = (n, v).
Proof.
  unfold add_parameter. destruct (find_parameter ps n) eqn:F; [discriminate|]. intros H E. injection E as <-. split.
  - unfold names_of. rewrite map_app. apply nodup_snoc; [exact H|]. now apply find_none_iff.
  - intros m w. rewrite in_app_iff. cbn. intuition.
Qed.
Theorem C76_configured_parameters :
  forall eqp entries ps, read_parameters eqp entries = Ok ps ->
  NoDup (names_of ps) /\
  (forall name x, In (name, x) eqp -> In (name, [x]) ps) /\
  (forall e, In e entries -> exists v, In (e_name e, v) ps /\
     (e_length e = 1 -> exists x rest, e_values e = x :: rest /\ v = [x]) /\
     (e_length e <> 1 -> forall x, e_values e = [x] -> Z.of_nat (List.length v) = e_length e /\ forall y, In y v -> y = x) /\
     (e_length e <> 1 -> List.length (e_values e) <> 1%nat -> v = e_values e)) /\
  forall name v, In (name, v) ps -> In name (map fst eqp ++ map e_name entries).
Proof.
  intros eqp entries ps. unfold read_parameters.
  assert (A1 : forall eqp ps0 ps1, NoDup (names_of ps0) ->
    fold_res (fun (p : string * R) ps => add_parameter ps (fst p) [snd p]) eqp ps0 = Ok ps1 ->
    NoDup (names_of ps1) /\ (forall m w, In (m, w) ps1 <-> In (m, w) ps0 \/ exists x, In (m, x) eqp /\ w = [x])).
  { clear. induction eqp as [|[n x] eqp IH]; cbn; intros ps0 ps1 H E.
    - injection E as <-. split; [exact H|]. intros m w. split; [auto|]. intros [K|(y & [] & _)]; exact K.
    - destruct (add_parameter ps0 n [x]) as [qs| |] eqn:Q; try discriminate. destruct (add_parameter_spec _ _ _ _ H Q) as (H1 & H2).
      destruct (IH qs ps1 H1 E) as (H3 & H4). split; [exact H3|]. intros m w. rewrite H4, H2. split.
      + intros [[K|K]|(y & K & ->)]; [auto| |right; exists y; auto]. injection K as -> ->. right. exists x. auto.
      + intros [K|(y & [K|K] & ->)]; [auto| |right; exists y; auto]. injection K as <- <-. auto. }
  destruct (fold_res (fun (p : string * R) ps => add_parameter ps (fst p) [snd p]) eqp []) as [ps1| |] eqn:E1; try discriminate. cbn [bind].
  destruct (A1 eqp [] ps1 (NoDup_nil _) E1) as (N1 & I1). clear A1 E1.
  assert (A2 : forall entries ps0 ps2, NoDup (names_of ps0) ->
    fold_res (fun e ps => vs <- entry_values e;; add_parameter ps (e_name e) vs) entries ps0 = Ok ps2 ->
    NoDup (names_of ps2) /\ (forall m w, In (m, w) ps2 <-> In (m, w) ps0 \/ exists e, In e entries /\ m = e_name e /\ entry_values e = Ok w) /\
    (forall e, In e entries -> exists w, entry_values e = Ok w)).
  { clear. induction entries as [|e entries IH]; cbn; intros ps0 ps2 H E.
    - injection E as <-. split; [exact H|]. split; [|intros e []]. intros m w. split; [auto|]. intros [K|(y & [] & _)]; exact K.
    - destruct (entry_values e) as [vs| |] eqn:V; try discriminate. cbn [bind] in E.
      destruct (add_parameter ps0 (e_name e) vs) as [qs| |] eqn:Q; try discriminate. destruct (add_parameter_spec _ _ _ _ H Q) as (H1 & H2).
      destruct (IH qs ps2 H1 E) as (H3 & H4 & H5). split; [exact H3|]. split.
      + intros m w. rewrite H4, H2. split.
        * intros [[K|K]|(f & K & -> & L)]; [auto| |right; exists f; auto]. injection K as -> ->. right. exists e. auto.
        * intros [K|(f & [<-|K] & -> & L)]; [auto| |right; exists f; auto]. left; right. congruence.
      + intros f [<-|Hf]; [exists vs; exact V|now apply H5]. }
  intros E2. destruct (A2 entries ps1 ps N1 E2) as (N2 & I2 & I3). clear A2 E2.
  split; [exact N2|]. split; [|split].
  - intros name x Hx. apply I2. left. apply I1. right. exists x. auto.
  - intros e He. destruct (I3 e He) as (v & Hv). exists v. split; [apply I2; right; exists e; auto|].
    unfold entry_values in Hv. destruct (Z.eqb_spec (e_length e) 1) as [L|L].
    + split; [|split; intros; contradiction]. intros _. destruct (e_values e) as [|x rest]; [discriminate|]. injection Hv as <-. eauto.
    + split; [intros; contradiction|]. split.
      * intros _ x Ex. rewrite Ex in Hv. destruct (Z.ltb_spec (e_length e) 0) as [|L0]; [discriminate|]. injection Hv as <-.
        rewrite repeat_length. split; [lia|]. intros y Hy. now apply repeat_spec in Hy.
      * intros _ Hl. destruct (e_values e) as [|x [|y rest]]; [injection Hv as <-; reflexivity|exfalso; apply Hl; reflexivity|injection Hv as <-; reflexivity].
  - intros name v H. apply I2 in H. apply in_or_app. destruct H as [H|(e & H & -> & _)].
    + left. apply I1 in H. destruct H as [[]|(x & H & _)]. apply (in_map fst) in H. exact H.
    + right. now apply in_map.
Qed.

(** A parameter with a name the libraries export is lost. *)
Theorem C76_library_names_win :
  forall math numpy name x, math name = Some (PNum (exp 1)) -> numpy name = None \/ numpy name = Some (PNum (exp 1)) -> x <> exp 1 ->
  forall ns, ~ sees (main_module math numpy (set_parameters [] [(name, [x])]) ns) [] [(name, [x])].
Proof.
  intros math numpy name x Hm Hn Hx ns H. destruct (H name [x]) as (K & _); [left; left; reflexivity|]. specialize (K x eq_refl).
  rewrite module_find in K by (apply set_parameters_NoDup; constructor). destruct Hn as [Hn|Hn]; rewrite Hn in K; [rewrite Hm in K|]; congruence.
Qed.

(** What a snippet sees and what is taken from it: the variables of the equation start
    at 0, the others are the cell; afterwards every variable must be a number. *)
Theorem C76_snippet : forall names body globals x y z i j k,
  let cell := [("x", x); ("y", y); ("z", z); ("i", IZR i); ("j", IZR j); ("k", IZR k)]%string in
  exists before : namespace,
    (forall n, In n names -> before n = Some (PNum 0)) /\
    (forall n v, In (n, v) cell -> ~ In n names -> before n = Some (PNum v)) /\
    (forall n, ~ In n names -> ~ In n (map fst cell) -> before n = None) /\
    match body globals before with
    | None => initial_data names body globals x y z i j k = None
    | Some after => forall vals, initial_data names body globals x y z i j k = Some vals <->
        Forall2 (fun n v => after n = Some (PNum v)) names vals
    end.
Proof.
  intros names body globals x y z i j k cell. exists (locals names x y z i j k).
  assert (G : forall ns l n, fold_left (fun (ns : namespace) n => bind_name ns n (PNum 0)) l ns n =
     if in_dec String.string_dec n l then Some (PNum 0) else ns n).
  { intros ns l n. revert ns. induction l as [|a l IH]; intros ns; [reflexivity|].
    cbn [fold_left]. rewrite IH. unfold bind_name. destruct (in_dec String.string_dec n l), (in_dec String.string_dec n (a :: l)); cbn [In] in *;
    destruct (String.eqb_spec n a); try reflexivity; exfalso; subst; intuition congruence. }
  unfold locals at 1 2 3. split; [|split; [|split]].
  - intros n Hn. rewrite G. destruct (in_dec String.string_dec n names); [reflexivity|tauto].
  - intros n v Hv Hn. rewrite G. destruct (in_dec String.string_dec n names); [tauto|].
    unfold cell in Hv. cbn [In] in Hv.
    repeat (destruct Hv as [Hv|Hv]; [injection Hv as <- <-; reflexivity|]). destruct Hv.
  - intros n Hn Hc. rewrite G. destruct (in_dec String.string_dec n names); [tauto|].
    unfold bind_name, no_names. cbn [map fst cell In] in Hc.
    repeat match goal with |- context [String.eqb n ?a] => destruct (String.eqb_spec n a); [exfalso; subst; tauto|] end. reflexivity.
  - unfold initial_data. destruct (body globals (locals names x y z i j k)) as [after|]; [|reflexivity].
    assert (K : forall l vals, all_some (map (fun n => extract_double (after n)) l) = Some vals <->
      Forall2 (fun n v => after n = Some (PNum v)) l vals).
    { induction l as [|a l IH]; intros vals; cbn [map all_some].
      - split; [intros H; injection H as <-; constructor|intros H; inversion H; reflexivity].
      - unfold extract_double at 1. split.
        + destruct (after a) as [[v|vs|]|] eqn:Ea; try discriminate.
          destruct (all_some _) as [rest|] eqn:Er; [|discriminate]. intros H. injection H as <-.
          constructor; [exact Ea|]. now apply IH.
        + intros H. inversion H as [|? v ? rest Ha Hl]; subst. rewrite Ha. apply IH in Hl. now rewrite Hl. }
    intros vals. apply K.
Qed.
Print Assumptions C76_snippet.

(** The samples of a process do not influence each other. *)
Theorem C76_samples_independent :
  forall math numpy configured samples names ns k s name,
  NoDup (names_of configured) ->
  (forall s, In s samples -> NoDup (names_of s) /\ forall n, In n (names_of s) <-> In n names) ->
  nth_error samples k = Some s ->
  exists m, nth_error (sample_modules math numpy configured samples ns) k = Some m /\
    m name = main_module math numpy (set_parameters configured s) ns name.
Proof.
  intros math numpy configured samples names ns k s name Hc Hs Hk.
  (* what earlier samples leave differs from the beginning only in names that are bound again *)
  assert (G : forall samples ns', (forall s, In s samples -> NoDup (names_of s) /\ forall n, In n (names_of s) <-> In n names) ->
    (forall n, ns' n = ns n \/ In n (names_of configured ++ names) \/ math n <> None \/ numpy n <> None) ->
    forall k s, nth_error samples k = Some s -> exists m, nth_error (sample_modules math numpy configured samples ns') k = Some m /\
      m name = main_module math numpy (set_parameters configured s) ns name); [|apply (G samples ns); auto].
  clear samples Hs k s Hk. induction samples as [|s0 samples IH]; intros ns' Hs Hns k s Hk; [destruct k; discriminate|].
  destruct (Hs s0 (or_introl eq_refl)) as (N0 & I0).
  assert (P0 : NoDup (names_of (set_parameters configured s0))) by (now apply set_parameters_NoDup).
  assert (Eq : forall n, main_module math numpy (set_parameters configured s0) ns' n = main_module math numpy (set_parameters configured s0) ns n).
  { intros n. rewrite !module_find by exact P0. destruct (numpy n) eqn:E1; [reflexivity|]. destruct (math n) eqn:E2; [reflexivity|].
    destruct (find_parameter (set_parameters configured s0) n) eqn:F; [reflexivity|].
    destruct (Hns n) as [K|[K|[K|K]]]; [exact K| |congruence|congruence]. exfalso.
    rewrite set_parameters_find in F by exact N0. destruct (find_parameter s0 n) eqn:F0; [discriminate|].
    apply find_none_iff in F, F0. apply in_app_or in K. rewrite I0 in F0. tauto. }
  destruct k as [|k]; cbn in Hk |- *.
  - injection Hk as <-. eexists. split; [reflexivity|]. apply Eq.
  - apply IH; [intros; apply Hs; right; assumption| |exact Hk].
    intros n. rewrite Eq, module_find by exact P0. destruct (numpy n) eqn:E1; [right; right; right; congruence|].
    destruct (math n) eqn:E2; [right; right; left; congruence|]. destruct (find_parameter (set_parameters configured s0) n) eqn:F; [|left; reflexivity].
    right; left. rewrite set_parameters_find in F by exact N0. apply in_or_app. destruct (find_parameter s0 n) eqn:F0.
    + right. apply I0. apply find_In in F0; [|exact N0]. apply (in_map fst) in F0. exact F0.
    + left. apply find_In in F; [|exact Hc]. apply (in_map fst) in F. exact F.
Qed.

(** * The first state *)

Lemma filled {V} (conserved : list R -> V) (prim : vol (list R)) (cons : vol V) :
  1 <= vnx cons -> 1 <= vny cons -> 1 <= vnz cons -> vnx cons * vny cons * vnz cons < two64 ->
  vnx prim = vnx cons -> vny prim = vny cons -> vnz prim = vnz cons ->
  exists u, compute_from_primitive conserved prim cons = Ok u /\ vnx u = vnx cons /\ vny u = vny cons /\ vnz u = vnz cons /\
    forall q, 0 <= q < vnx cons * vny cons * vnz cons -> vdat u q = conserved (vdat prim q).
Proof.
  intros H1 H2 H3 H4 E1 E2 E3. unfold compute_from_primitive. rewrite E1, E2, E3.
  destruct (for_each_visits (vnx cons) (vny cons) (vnz cons) 0 0 0 0 0 0) as (l & ND & Il & Rl & Fl); try lia; try (unfold two64; lia).
  rewrite Fl.
  destruct (pokes (fun q => q) (fun q => Some (conserved (vdat prim q))) l cons ND) as [(u & Ru & X & Y & Zz & V1 & _)|(_ & i & _ & K)]; [auto|exact Rl| |discriminate].
  exists u. split; [|split; [exact X|split; [exact Y|split; [exact Zz|]]]].
  - rewrite <- Ru. apply fold_res_ext. intros q s Hq. unfold peek. rewrite E1, E2, E3.
    specialize (Rl q Hq). rewrite (proj2 (Z.leb_le _ _)), (proj2 (Z.ltb_lt _ _)) by lia. reflexivity.
  - intros q Hq. assert (I : In q l).
    { apply Il. destruct (index_surj (vnx cons) (vny cons) (vnz cons) q) as (x & y & z & A & B & C & ->); [lia|lia|lia|].
      exists x, y, z. unfold index. repeat split; lia. }
    specialize (V1 q I). injection V1 as <-. reflexivity.
Qed.

Lemma let3 {T} (c : cell) (F : Z -> Z -> Z -> T) : (let '(x, y, z) := c in F x y z) = F (at3 c 0) (at3 c 1) (at3 c 2).
Proof. destruct c as [[x y] z]. reflexivity. Qed.

Section State.
Context {V : Type}.
Variables (names : list string) (globals : namespace) (gr : grid) (g : cell) (conserved : list R -> V) (cons : vol V).
Hypothesis HV : volume_of gr g cons.
Let n := gr_cells gr.
Let pos (c : cell) : Z := index (vnx cons) (vny cons) (at3 c 0 + at3 g 0) (at3 c 1 + at3 g 1) (at3 c 2 + at3 g 2).

Lemma pos_range c : in_grid c n -> 0 <= pos c < vnx cons * vny cons * vnz cons.
Proof.
  intros H. destruct HV as (P & G & E1 & E2 & E3 & _). unfold pos. apply L_Foreach.index_range;
    [pose proof (H 0 ltac:(lia)); pose proof (G 0 ltac:(lia))|pose proof (H 1 ltac:(lia)); pose proof (G 1 ltac:(lia))|
     pose proof (H 2 ltac:(lia)); pose proof (G 2 ltac:(lia))]; unfold n in *; lia.
Qed.
Lemma pos_inj c c' : in_grid c n -> in_grid c' n -> pos c = pos c' -> c = c'.
Proof.
  intros H H' E. destruct HV as (P & G & E1 & E2 & E3 & _). unfold pos in E.
  pose proof (H 0 ltac:(lia)); pose proof (G 0 ltac:(lia)); pose proof (H 1 ltac:(lia)); pose proof (G 1 ltac:(lia));
  pose proof (H 2 ltac:(lia)); pose proof (G 2 ltac:(lia)). 
  pose proof (H' 0 ltac:(lia)); pose proof (H' 1 ltac:(lia)); pose proof (H' 2 ltac:(lia)). unfold n in *.
  apply index_inj in E; try lia. destruct c as [[x y] z], c' as [[x' y'] z']. cbn in *. repeat apply (f_equal2 pair); lia.
Qed.
Lemma get_pos {A} (u : vol A) c : vnx u = vnx cons -> vny u = vny cons -> vget u (beside c g) = vdat u (pos c).
Proof. intros E1 E2. unfold vget, beside, pos. now rewrite E1, E2. Qed.
Lemma extents1 : 1 <= vnx cons /\ 1 <= vny cons /\ 1 <= vnz cons.
Proof.
  destruct HV as (P & G & E1 & E2 & E3 & _). pose proof (P 0 ltac:(lia)); pose proof (G 0 ltac:(lia)); pose proof (P 1 ltac:(lia)); pose proof (G 1 ltac:(lia));
  pose proof (P 2 ltac:(lia)); pose proof (G 2 ltac:(lia)). lia.
Qed.
Lemma in_grid_list l : (forall i j k, In (i, j, k) l <-> 0 <= i < at3 n 0 /\ 0 <= j < at3 n 1 /\ 0 <= k < at3 n 2) ->
  forall c, In c l <-> in_grid c n.
Proof.
  intros H [[i j] k]. rewrite H. unfold in_grid. split.
  - intros (A & B & C) d Hd. assert (D : d = 0 \/ d = 1 \/ d = 2) by lia. destruct D as [D | [D | D]]; subst d; assumption.
  - intros K. exact (conj (K 0 ltac:(lia)) (conj (K 1 ltac:(lia)) (K 2 ltac:(lia)))).
Qed.
Lemma centre_midpoint c k : midpoint gr c k = centre gr c k.
Proof. unfold midpoint, centre. lra. Qed.

(** The snippet is evaluated at the centre of each cell, once; its values are the
    primitive variables there. *)
Theorem C76_first_state : forall body,
  let value c := initial_data names body globals (centre gr c 0) (centre gr c 1) (centre gr c 2) (at3 c 0) (at3 c 1) (at3 c 2) in
  (exists u, set_initial_data names (Snippet body) globals gr g conserved cons = Ok u /\
     vnx u = vnx cons /\ vny u = vny cons /\ vnz u = vnz cons /\
     forall c, in_grid c (gr_cells gr) -> exists vals, value c = Some vals /\ vget u (beside c g) = conserved vals) \/
  (set_initial_data names (Snippet body) globals gr g conserved cons = Throw /\
     exists c, in_grid c (gr_cells gr) /\ value c = None).
Proof.
  intros body value. unfold set_initial_data, fill_snippet.
  set (zero := mkvol (vnx cons) (vny cons) (vnz cons) (fun _ : Z => map (fun _ => 0%R) names)).
  destruct extents1 as (X1 & X2 & X3). pose proof HV as (P & G & E1 & E2 & E3 & E4). fold n in P, E1, E2, E3.
  destruct (for_each_midpoint_visits (at3 n 0) (at3 n 1) (at3 n 2) (at3 g 0) (at3 g 1) (at3 g 2)) as (l & ND & Il & Fl);
    [apply P; lia|apply P; lia|apply P; lia|apply G; lia|apply G; lia|apply G; lia|rewrite <- E1, <- E2, <- E3; exact E4|].
  pose proof (in_grid_list l Il) as Hl.
  set (loop := let '(gx, gy, gz) := g in _).
  assert (EL : loop = fold_res (fun c u => match value c with Some a => poke u (pos c) a | None => Throw end) l zero).
  { unfold loop. rewrite let3. fold n. change (vnx zero) with (vnx cons). change (vny zero) with (vny cons). change (vnz zero) with (vnz cons).
    unfold pos. rewrite E1, E2, E3, Fl. apply fold_res_ext.
    intros [[i j] k] u Hc. rewrite !centre_midpoint. unfold value. change (at3 (i, j, k) 0) with i. change (at3 (i, j, k) 1) with j.
    change (at3 (i, j, k) 2) with k. destruct (initial_data _ _ _ _ _ _ _ _ _); [|reflexivity]. f_equal. unfold index. ring. }
  rewrite EL. clear loop EL.
  destruct (pokes pos value l zero ND) as [(prim & -> & Y1 & Y2 & Y3 & V1 & _)|(-> & c & Hc & Vc)].
  - intros c c' Hc Hc'. apply pos_inj; now apply Hl.
  - intros c Hc. apply pos_range. now apply Hl.
  - left. cbn [bind]. destruct (filled conserved prim cons X1 X2 X3 E4 Y1 Y2 Y3) as (u & Ru & U1 & U2 & U3 & Uv). exists u.
    split; [exact Ru|]. split; [exact U1|]. split; [exact U2|]. split; [exact U3|]. intros c Hc.
    exists (vdat prim (pos c)). split; [apply V1; now apply Hl|]. rewrite (get_pos u c U1 U2). apply Uv. now apply pos_range.
  - right. cbn [bind]. split; [reflexivity|]. exists c. split; [now apply Hl|exact Vc].
Qed.

(** A program with init_global gets arrays of zeros, and what it leaves there
    becomes the primitive variables of the cells with these indices. *)
Theorem C76_global_program : forall body,
  exists before, (forall c, before c = map (fun _ => 0%R) names) /\
  match body globals (gr_cells gr) (gr_origin gr) (gr_top gr) before with
  | Some after => exists u, set_initial_data names (Global body) globals gr g conserved cons = Ok u /\
      vnx u = vnx cons /\ vny u = vny cons /\ vnz u = vnz cons /\
      forall c, in_grid c (gr_cells gr) -> vget u (beside c g) = conserved (after c)
  | None => set_initial_data names (Global body) globals gr g conserved cons = Throw
  end.
Proof.
  intros body. unfold set_initial_data, fill_global.
  set (zero := mkvol (vnx cons) (vny cons) (vnz cons) (fun _ : Z => map (fun _ => 0%R) names)).
  set (before := fun c : cell => let '(i, j, k) := c in vdat zero (array_offset g zero i j k)). cbv zeta.
  exists before. split; [intros [[i j] k]; reflexivity|].
  destruct (body globals (gr_cells gr) (gr_origin gr) (gr_top gr) before) as [after|]; [|reflexivity].
  destruct extents1 as (X1 & X2 & X3). pose proof HV as (P & G & E1 & E2 & E3 & E4). fold n in P, E1, E2, E3.
  fold n. rewrite for3_box.
  assert (Hl : forall c, In c (box 0 (at3 n 2) 0 (at3 n 1) 0 (at3 n 0)) <-> in_grid c n).
  { apply in_grid_list. intros i j k. rewrite box_In. tauto. }
  rewrite (fold_res_ext _ (fun c u => match Some (after c) with Some a => poke u (pos c) a | None => Throw end)).
  2: { intros [[i j] k] u Hc. f_equal. unfold array_offset, pos, index. destruct g as [[gx gy] gz]. cbn. ring. }
  destruct (pokes pos (fun c => Some (after c)) (box 0 (at3 n 2) 0 (at3 n 1) 0 (at3 n 0)) zero (box_NoDup _ _ _ _ _ _))
    as [(prim & -> & Y1 & Y2 & Y3 & V1 & _)|(-> & c & Hc & Vc)]; [| | |discriminate].
  - intros c c' Hc Hc'. apply pos_inj; now apply Hl.
  - intros c Hc. apply pos_range. now apply Hl.
  - cbn [bind]. destruct (filled conserved prim cons X1 X2 X3 E4 Y1 Y2 Y3) as (u & Ru & U1 & U2 & U3 & Uv). exists u.
    split; [exact Ru|]. split; [exact U1|]. split; [exact U2|]. split; [exact U3|]. intros c Hc.
    rewrite (get_pos u c U1 U2), Uv by now apply pos_range. f_equal.
    assert (K : Some (after c) = Some (vdat prim (pos c))) by (apply V1; now apply Hl). injection K as ->. reflexivity.
Qed.
End State.

(** With boundary conditions: every cell, ghost cells included, holds the value of its
    image. *)
Definition ghosts (dims g : Z) : cell := (g, if 1 <? dims then g else 0, if 2 <? dims then g else 0).
Definition inside (dims g : Z) (c : cell) : cell :=
  (at3 c 0 - at3 (ghosts dims g) 0, at3 c 1 - at3 (ghosts dims g) 1, at3 c 2 - at3 (ghosts dims g) 2).
Theorem C76_first_value :
  forall V names body globals gr dims g (conserved : list R -> V) cons (periodic : bool),
  1 <= dims <= 3 -> volume_of gr (ghosts dims g) cons -> (forall k, 0 <= k < dims -> g <= at3 (gr_cells gr) k) ->
  let nx := at3 (gr_cells gr) 0 in let ny := at3 (gr_cells gr) 1 in let nz := at3 (gr_cells gr) 2 in
  let bc := apply_boundary (if periodic then periodic_apply else neumann_apply) dims g (fun _ => false) in
  let start := set_initial_value names (Snippet body) globals gr (ghosts dims g) conserved bc cons in
  let value c := initial_data names body globals (centre gr c 0) (centre gr c 1) (centre gr c 2) (at3 c 0) (at3 c 1) (at3 c 2) in
  (exists u, start = Ok u /\ forall t, in_volume dims g nx ny nz t ->
     let c := inside dims g (image (if periodic then periodic1 else mirror1) dims g nx ny nz t) in
     in_grid c (gr_cells gr) /\ exists vals, value c = Some vals /\ vget u t = conserved vals) \/
  (start = Throw /\ exists c, in_grid c (gr_cells gr) /\ value c = None).
Proof.
  intros V names body globals gr dims g conserved cons periodic Hd HV Hg nx ny nz bc start value. unfold start, set_initial_value.
  destruct (C76_first_state names globals gr (ghosts dims g) conserved cons HV body) as [(u & -> & U1 & U2 & U3 & Uv)|(-> & c & Hc & Vc)];
    [left|right; split; [reflexivity|exists c; split; assumption]].
  destruct HV as (P & G & E1 & E2 & E3 & E4). cbn [bind].
  pose proof (P 0 ltac:(lia)) as P0. pose proof (P 1 ltac:(lia)) as P1. pose proof (P 2 ltac:(lia)) as P2. fold nx in P0, E1. fold ny in P1, E2. fold nz in P2, E3.
  assert (G0 : 0 <= g) by exact (G 0 ltac:(lia)).
  assert (Hx : g <= nx) by (apply Hg; lia). assert (Hy : 1 < dims -> g <= ny) by (intros; apply Hg; lia). assert (Hz : 2 < dims -> g <= nz) by (intros; apply Hg; lia).
  assert (HE : has_extents u dims g nx ny nz).
  { unfold has_extents. rewrite U1, U2, U3, E1, E2, E3. cbn. destruct (1 <? dims), (2 <? dims); repeat split; lia. }
  assert (K : exists u', bc u = Ok u' /\ forall t, in_volume dims g nx ny nz t -> vget u' t = vget u (image (if periodic then periodic1 else mirror1) dims g nx ny nz t)).
  { assert (HA : forall v, In v [u] -> has_extents v dims g nx ny nz) by (intros v [<-|[]]; exact HE). unfold bc.
    destruct periodic;
      [destruct (C02_periodic_boundary V [u] dims g nx ny nz Hd G0 ltac:(lia) ltac:(lia) ltac:(lia) Hx Hy Hz HA) as (l & El & F)
      |destruct (C03_neumann_boundary V [u] dims g nx ny nz Hd G0 ltac:(lia) ltac:(lia) ltac:(lia) Hx Hy Hz HA) as (l & El & F)];
      unfold apply_boundary_conditions in El; cbn [map_res] in El; destruct (apply_boundary _ _ _ _ u) as [u'| |]; cbn [bind] in El; try discriminate;
      injection El as <-; inversion F as [|? ? ? ? F1 _]; subst; exists u'; (split; [reflexivity|apply F1]). }
  destruct K as (u' & -> & Ku). exists u'. split; [reflexivity|]. intros t Ht. cbv zeta.
  set (q := image _ _ _ _ _ _ t) in *.
  assert (Q : interior dims g nx ny nz q).
  { destruct t as [[x y] z]. destruct Ht as (Tx & Ty & Tz). unfold q, image, interior, interior1.
    assert (M : forall n s, g <= n -> 1 <= n -> 0 <= s < n + 2 * g -> g <= (if periodic then periodic1 else mirror1) g n s < g + n).
    { intros n s H1 H2 H3. destruct periodic; unfold periodic1, mirror1.
      - pose proof (Z.mod_pos_bound (s - g) n ltac:(lia)). lia.
      - destruct (s <? g) eqn:A1; [apply Z.ltb_lt in A1; lia|apply Z.ltb_ge in A1]. destruct (g + n <=? s) eqn:A2; [apply Z.leb_le in A2; lia|apply Z.leb_gt in A2; lia]. }
    destruct (Z.ltb_spec 1 dims), (Z.ltb_spec 2 dims); split; try (split); try (apply M; lia); try lia. }
  assert (I : in_grid (inside dims g q) (gr_cells gr) /\ beside (inside dims g q) (ghosts dims g) = q).
  { destruct q as [[x y] z]. destruct Q as (Qx & Qy & Qz). unfold interior1 in *. split.
    - intros k Hk. assert (D : k = 0 \/ k = 1 \/ k = 2) by lia. fold nx ny nz.
      destruct D as [D | [D | D]]; subst k; cbn; [change (0 <= x - g < nx); lia| |].
      + change (at3 (gr_cells gr) 1) with ny. destruct (1 <? dims); lia.
      + change (at3 (gr_cells gr) 2) with nz. destruct (2 <? dims); lia.
    - unfold beside, inside, ghosts. cbn. repeat apply (f_equal2 pair); lia. }
  destruct I as (I1 & I2). split; [exact I1|]. destruct (Uv _ I1) as (vals & A1 & A2). exists vals. split; [exact A1|].
  rewrite (Ku t Ht). rewrite I2 in A2. exact A2.
Qed.

(** * Decomposed runs

    The processes start with the blocks of the state of one process, for programs
    that do not look at the indices. *)
Definition shifted (s c : cell) : cell := (at3 s 0 + at3 c 0, at3 s 1 + at3 c 1, at3 s 2 + at3 c 2).
Theorem C76_decomposition_partial :
  forall V p gr r junk lg nb names body globals g g' (conserved : list R -> V) cons cons' u,
  positive3 p -> divides3 p (gr_cells gr) -> 0 <= r < processes p -> decompose p gr r junk = Ok (lg, nb) ->
  volume_of gr g cons -> volume_of lg g' cons' -> index_free names body ->
  set_initial_data names (Snippet body) globals gr g conserved cons = Ok u ->
  exists u', set_initial_data names (Snippet body) globals lg g' conserved cons' = Ok u' /\
    forall c, in_grid c (gr_cells lg) ->
      in_grid (shifted (gr_start lg) c) (gr_cells gr) /\ vget u' (beside c g') = vget u (beside (shifted (gr_start lg) c) g).
Proof.
  intros V p gr r junk lg nb names body globals g g' conserved cons cons' u Hp Hdv Hr E HV HV' IF Eu.
  assert (Hn : forall k, 0 <= k < 3 -> 0 <= at3 (gr_cells gr) k) by (intros k Hk; pose proof (proj1 HV k Hk); lia).
  assert (Sub : forall c, in_grid c (gr_cells lg) -> in_grid (shifted (gr_start lg) c) (gr_cells gr)).
  { destruct (C18_blocks_partition p gr Hp Hdv Hn) as (A & _). destruct (A r junk Hr) as (lg' & nb' & E' & B). rewrite E in E'. injection E' as <- <-.
    intros c Hc. apply B. intros k Hk. pose proof (Hc k Hk). assert (D : k = 0 \/ k = 1 \/ k = 2) by lia.
    destruct D as [D | [D | D]]; subst k; unfold shifted; [change (at3 (?a, _, _) 0) with a|change (at3 (_, ?a, _) 1) with a|change (at3 (_, _, ?a) 2) with a]; lia. }
  assert (Val : forall c, in_grid c (gr_cells lg) ->
    initial_data names body globals (centre lg c 0) (centre lg c 1) (centre lg c 2) (at3 c 0) (at3 c 1) (at3 c 2) =
    (let d := shifted (gr_start lg) c in initial_data names body globals (centre gr d 0) (centre gr d 1) (centre gr d 2) (at3 d 0) (at3 d 1) (at3 d 2))).
  { intros c Hc. cbv zeta. rewrite <- !centre_midpoint. unfold shifted.
    rewrite !(C57_cell_positions p gr r junk lg nb c) by (assumption || lia). apply IF. }
  destruct (C76_first_state names globals gr g conserved cons HV body) as [(v & Ev & _ & _ & _ & Vv)|(Ev & _)]; rewrite Eu in Ev; [injection Ev as <-|discriminate].
  destruct (C76_first_state names globals lg g' conserved cons' HV' body) as [(u' & Eu' & _ & _ & _ & Uv)|(Eu' & c & Hc & Vc)].
  - exists u'. split; [exact Eu'|]. intros c Hc. split; [now apply Sub|]. destruct (Uv c Hc) as (vals & A1 & A2).
    destruct (Vv _ (Sub c Hc)) as (vals' & B1 & B2). rewrite A2, B2. rewrite (Val c Hc) in A1. cbv zeta in A1. rewrite A1 in B1. congruence.
  - exfalso. destruct (Vv _ (Sub c Hc)) as (vals & B1 & _). rewrite (Val c Hc) in Vc. cbv zeta in Vc. congruence.
Qed.

(** The indices [i], [j], [k] are those in the block, and a program with init_global gets
    the number of cells and the corners of the block, so these programs give different
    states with different numbers of processes. *)
Open Scope string_scope.
Definition by_index : snippet := fun _ ls => match ls "i" with Some v => Some (bind_name ls "u" v) | None => None end.
Definition by_size : global_program := fun _ n _ _ _ => Some (fun _ => [IZR (at3 n 0)]).
Definition first (l : list R) : R := hd 0%R l.
Definition whole : grid := ex_grid (4, 1, 1) (fun _ => PERIODIC).
Definition part : grid := match decompose (2, 1, 1) whole 1 (fun _ => 0) with Ok (lg, _) => lg | _ => whole end.
Definition state4 : vol R := mkvol 6 1 1 (fun _ => 0%R).
Definition state2 : vol R := mkvol 4 1 1 (fun _ => 0%R).
Lemma part_ok : exists nb, decompose (2, 1, 1) whole 1 (fun _ => 0) = Ok (part, nb).
Proof. eexists. reflexivity. Qed.
Lemma state4_ok : volume_of whole (1, 0, 0) state4.
Proof.
  split; [|split; [|repeat split; reflexivity]]; intros k Hk; assert (D : k = 0 \/ k = 1 \/ k = 2) by lia;
    destruct D as [D | [D | D]]; subst k; cbn; lia.
Qed.
Lemma state2_ok : volume_of part (1, 0, 0) state2.
Proof.
  split; [|split; [|repeat split; reflexivity]]; intros k Hk; assert (D : k = 0 \/ k = 1 \/ k = 2) by lia;
    destruct D as [D | [D | D]]; subst k; vm_compute; congruence.
Qed.
Lemma cell0 n : positive3 n -> in_grid (0, 0, 0) n.
Proof. intros H k Hk. pose proof (H k Hk). assert (D : k = 0 \/ k = 1 \/ k = 2) by lia. destruct D as [D | [D | D]]; subst k; cbn; lia. Qed.
Lemma cell2 : in_grid (shifted (gr_start part) (0, 0, 0)) (gr_cells whole).
Proof. intros k Hk. assert (D : k = 0 \/ k = 1 \/ k = 2) by lia. destruct D as [D | [D | D]]; subst k; vm_compute; intuition congruence. Qed.
Lemma positive211 : positive3 (2, 1, 1).
Proof. intros k Hk. assert (D : k = 0 \/ k = 1 \/ k = 2) by lia. destruct D as [D | [D | D]]; subst k; cbn; lia. Qed.
Lemma divides211 : divides3 (2, 1, 1) (gr_cells whole).
Proof. intros k Hk. assert (D : k = 0 \/ k = 1 \/ k = 2) by lia. destruct D as [D | [D | D]]; subst k; [exists 2|exists 1|exists 1]; reflexivity. Qed.

Theorem C76_decomposition_refuted :
  exists prog_i prog_g p gr r junk lg nb names g (cons cons' : vol R),
  positive3 p /\ divides3 p (gr_cells gr) /\ 0 <= r < processes p /\ decompose p gr r junk = Ok (lg, nb) /\
  volume_of gr g cons /\ volume_of lg g cons' /\
  forall globals prog, prog = Snippet prog_i \/ prog = Global prog_g ->
  exists u u' c, set_initial_data names prog globals gr g first cons = Ok u /\ set_initial_data names prog globals lg g first cons' = Ok u' /\
    in_grid c (gr_cells lg) /\ vget u' (beside c g) <> vget u (beside (shifted (gr_start lg) c) g).
Proof.
  destruct part_ok as (nb & Ep).
  exists by_index, by_size, (2, 1, 1), whole, 1, (fun _ => 0), part, nb, ["u"], (1, 0, 0), state4, state2.
  split; [exact positive211|]. split; [exact divides211|]. split; [vm_compute; intuition congruence|]. split; [exact Ep|].
  split; [exact state4_ok|]. split; [exact state2_ok|]. intros globals prog [-> | ->].
  - assert (Ev : forall x y z i j k, initial_data ["u"] by_index globals x y z i j k = Some [IZR i]) by reflexivity.
    destruct (C76_first_state ["u"] globals whole (1, 0, 0) first state4 state4_ok by_index) as [(u & Eu & _ & _ & _ & Uv)|(_ & c & _ & Vc)];
      [|cbv zeta in Vc; rewrite Ev in Vc; discriminate].
    destruct (C76_first_state ["u"] globals part (1, 0, 0) first state2 state2_ok by_index) as [(u' & Eu' & _ & _ & _ & Uv')|(_ & c & _ & Vc)];
      [|cbv zeta in Vc; rewrite Ev in Vc; discriminate].
    pose proof (cell0 _ (proj1 state2_ok)) as I0. exists u, u', (0, 0, 0). split; [exact Eu|]. split; [exact Eu'|]. split; [exact I0|].
    destruct (Uv' _ I0) as (vals & A1 & ->). destruct (Uv _ cell2) as (vals' & B1 & ->). rewrite Ev in A1, B1. injection A1 as <-. injection B1 as <-.
    change (IZR (at3 (0, 0, 0) 0) <> IZR (at3 (shifted (gr_start part) (0, 0, 0)) 0)). intros K. apply eq_IZR in K. vm_compute in K. discriminate.
  - destruct (C76_global_program ["u"] globals whole (1, 0, 0) first state4 state4_ok by_size) as (b1 & _ & u & Eu & _ & _ & _ & Uv).
    destruct (C76_global_program ["u"] globals part (1, 0, 0) first state2 state2_ok by_size) as (b2 & _ & u' & Eu' & _ & _ & _ & Uv').
    pose proof (cell0 _ (proj1 state2_ok)) as I0. exists u, u', (0, 0, 0). split; [exact Eu|]. split; [exact Eu'|]. split; [exact I0|].
    rewrite (Uv' _ I0), (Uv _ cell2).
    change (IZR (at3 (gr_cells part) 0) <> IZR (at3 (gr_cells whole) 0)). intros K. apply eq_IZR in K. vm_compute in K. discriminate.
Qed.

(** An equation parameter is lost this way in the case of the Euler equations: Python's
    math exports a function gamma. *)
Definition python_math : namespace := fun n =>
  if String.eqb n "gamma" then Some (PObject "gamma") else if String.eqb n "e" then Some (PNum (exp 1)) else if String.eqb n "pi" then Some (PNum PI) else None.
Theorem C76_gamma_refuted :
  exists ps, read_parameters [("gamma", 1.4%R)] [] = Ok ps /\
  forall numpy ns, numpy "gamma" = None -> ~ sees (main_module python_math numpy (set_parameters ps []) ns) ps [].
Proof.
  eexists. split; [reflexivity|]. intros numpy ns Hn H. destruct (H "gamma" [1.4%R]) as (K & _).
  - right. split; [intros []|left; reflexivity].
  - specialize (K _ eq_refl). rewrite module_find in K by (repeat constructor; intros []). rewrite Hn in K. discriminate.
Qed.

(** * Examples *)

(** A jump whose place is a parameter: 1 left of [a], 0 right of it. *)
Definition jump : snippet := fun gl ls =>
  match ls "x", gl "a" with
  | Some (PNum x), Some (PNum a) => Some (bind_name ls "u" (PNum (if Rlt_dec x a then 1 else 0)))
  | _, _ => None
  end.
Example C76_state_nonvacuous :
  let configured := [("a", [1%R]); ("b", [3%R; 4%R])] in let sample := [("a", [2%R])] in
  ~ clash python_math (fun _ => None) configured sample /\ index_free ["u"] jump /\
  exists u, set_initial_data ["u"] (Snippet jump) (main_module python_math (fun _ => None) (set_parameters configured sample) (fun _ => None))
      whole (1, 0, 0) first state4 = Ok u /\
    vget u (beside (1, 0, 0) (1, 0, 0)) = 1%R /\ vget u (beside (2, 0, 0) (1, 0, 0)) = 0%R.
Proof.
  intros configured sample. split; [|split].
  - intros (name & [<-|[<-|[<-|[]]]] & [K|K]); apply K; reflexivity.
  - intros ns x y z i j k i' j' k'. unfold initial_data, jump. cbn. destruct (ns "a") as [[a| |]|]; reflexivity.
  - set (m := main_module _ _ _ _).
    assert (Ev : forall x y z i j k, initial_data ["u"] jump m x y z i j k = Some [if Rlt_dec x 2 then 1%R else 0%R]) by reflexivity.
    destruct (C76_first_state ["u"] m whole (1, 0, 0) first state4 state4_ok jump) as [(u & Eu & _ & _ & _ & Uv)|(_ & c & _ & Vc)];
      [|cbv zeta in Vc; rewrite Ev in Vc; discriminate].
    exists u. split; [exact Eu|].
    assert (I : forall x, 0 <= x < 4 -> in_grid (x, 0, 0) (gr_cells whole)).
    { intros x Hx k Hk. assert (D : k = 0 \/ k = 1 \/ k = 2) by lia. destruct D as [D | [D | D]]; subst k; cbn; lia. }
    destruct (Uv _ (I 1 ltac:(lia))) as (v1 & A1 & ->). destruct (Uv _ (I 2 ltac:(lia))) as (v2 & A2 & ->).
    rewrite Ev in A1, A2. injection A1 as <-. injection A2 as <-. unfold first, centre. cbn.
    split; [destruct (Rlt_dec _ _); [reflexivity|exfalso; lra]|destruct (Rlt_dec _ _); [exfalso; lra|reflexivity]].
Qed.
Example C76_decomposition_nonvacuous :
  exists nb, decompose (2, 1, 1) whole 1 (fun _ => 0) = Ok (part, nb) /\ positive3 (2, 1, 1) /\ divides3 (2, 1, 1) (gr_cells whole) /\
  volume_of whole (1, 0, 0) state4 /\ volume_of part (1, 0, 0) state2 /\
  exists u, set_initial_data ["u"] (Snippet jump) (fun _ => Some (PNum 2)) whole (1, 0, 0) first state4 = Ok u.
Proof.
  destruct part_ok as (nb & Ep). exists nb. split; [exact Ep|]. split; [exact positive211|]. split; [exact divides211|].
  split; [exact state4_ok|]. split; [exact state2_ok|].
  destruct (C76_first_state ["u"] (fun _ => Some (PNum 2)) whole (1, 0, 0) first state4 state4_ok jump) as [(u & Eu & _)|(_ & c & _ & Vc)]; [exists u; exact Eu|discriminate].
Qed.
Example C76_value_nonvacuous : volume_of whole (ghosts 1 1) state4 /\ (forall k, 0 <= k < 1 -> 1 <= at3 (gr_cells whole) k) /\
  inside 1 1 (image periodic1 1 1 4 1 1 (0, 0, 0)) = (3, 0, 0) /\ inside 1 1 (image mirror1 1 1 4 1 1 (0, 0, 0)) = (0, 0, 0).
Proof. split; [exact state4_ok|]. split; [|split; reflexivity]. intros k Hk. replace k with 0 by lia. cbn. lia. Qed.
Example C76_parameters_nonvacuous :
  read_parameters [("gamma", 1.4%R)] [mkentry "a" 1 [1%R]; mkentry "b" 3 [0%R]] =
    Ok [("gamma", [1.4%R]); ("a", [1%R]); ("b", [0%R; 0%R; 0%R])] /\
  read_parameters [("gamma", 1.4%R)] [mkentry "gamma" 1 [1%R]] = Throw /\
  (let sample := [("a", [2%R])] in forall s, In s [sample; sample] -> NoDup (names_of s) /\ forall n, In n (names_of s) <-> In n ["a"]).
Proof. split; [reflexivity|]. split; [reflexivity|]. intros sample s [<-|[<-|[]]]; (split; [repeat constructor; intros []|reflexivity]). Qed.

Print Assumptions C76_parameters_partial.
Print Assumptions C76_configured_parameters.
Print Assumptions C76_library_names_win.
Print Assumptions C76_gamma_refuted.
Print Assumptions C76_samples_independent.
Print Assumptions C76_first_state.
Print Assumptions C76_global_program.
Print Assumptions C76_first_value.
Print Assumptions C76_decomposition_partial.
Print Assumptions C76_decomposition_refuted.
