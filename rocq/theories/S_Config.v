(** What the configuration offers, by name, and the cells that wide fluxes need. *)
From Coq Require Import ZArith List Bool Reals String Ascii.
From Verif Require Import M_Base M_Vec M_Boundary M_Flux S_Boundary S_Flux.
Import ListNotations.
Open Scope string_scope.

(** The fluxes and reconstructions one can ask for. *)
Definition flux_names (equation : string) : list string :=
  if existsb (String.eqb equation) ["euler1"; "euler2"; "euler3"]
  then ["hll"; "hll3"; "central"; "tecno1"; "tecno4"; "tecno6"]
  else if String.eqb equation "burgers"
  then ["central"; "rusanov"; "godunov"; "roe"; "tecno1"; "tecno4"; "godunov4"; "tecno6"; "godunov6"]
  else if String.eqb equation "buckleyleverett" then ["central"; "godunov"; "rusanov"]
  else if String.eqb equation "cubic" then ["central"; "roe"; "rusanov"]
  else if String.eqb equation "linear" then ["central"; "rusanov"; "roe"; "upwind"]
  else [].
Definition recon_names (equation : string) : list string :=
  ["none"; "eno2"; "eno3"; "eno4"; "weno2"; "weno3"; "mc"; "mm"] ++
  (if existsb (String.eqb equation) ["euler1"; "euler2"; "euler3"] then ["wenof2"] else []).

(** The same word up to the case of the letters A to Z. *)
Definition letters : list (ascii * ascii) :=
  [("A", "a"); ("B", "b"); ("C", "c"); ("D", "d"); ("E", "e"); ("F", "f"); ("G", "g"); ("H", "h");
   ("I", "i"); ("J", "j"); ("K", "k"); ("L", "l"); ("M", "m"); ("N", "n"); ("O", "o"); ("P", "p");
   ("Q", "q"); ("R", "r"); ("S", "s"); ("T", "t"); ("U", "u"); ("V", "v"); ("W", "w"); ("X", "x");
   ("Y", "y"); ("Z", "z")]%char.
Inductive same_but_case : string -> string -> Prop :=
| Same_nil : same_but_case "" ""
| Same_char c s t : same_but_case s t -> same_but_case (String c s) (String c t)
| Same_upper c d s t : In (d, c) letters -> same_but_case s t -> same_but_case (String c s) (String d t).

(** A word with white space around it. *)
Definition white : list ascii := [" "; "009"; "010"; "011"; "012"; "013"]%char.
Fixpoint blank (s : string) : Prop :=
  match s with EmptyString => True | String c s => In c white /\ blank s end.
Definition padded (s word : string) : Prop :=
  exists a b, s = (a ++ word ++ b)%string /\ blank a /\ blank b.

(** The number of cells a flux looks at, and the reach of a reconstruction: it looks
    at the cells less than this far away. *)
Definition flux_points (flux : string) : Z :=
  if existsb (String.eqb flux) ["tecno6"; "godunov6"] then 6
  else if existsb (String.eqb flux) ["tecno4"; "godunov4"] then 4 else 2.
Definition recon_reach (reconstruction : string) : Z :=
  if String.eqb reconstruction "none" then 1
  else if existsb (String.eqb reconstruction) ["eno3"; "weno3"] then 3
  else if String.eqb reconstruction "eno4" then 4 else 2.

(** The combinations where a flux looks beyond the reconstructed cells: the flux needs
    points / 2 - 1 cells more than a two-point flux on either side, and the ghost
    layer has points - 1 cells only. *)
Definition unsuited (flux reconstruction : string) : bool :=
  ((2 <? flux_points flux) && (flux_points flux / 2 <? recon_reach reconstruction))%Z.

Definition along (k : Z) (c : cell) : Z :=
  let '(x, y, z) := c in if (k =? 0)%Z then x else if (k =? 1)%Z then y else z.

(** The cells with a reconstructed value, in a volume with [n k] cells (ghost cells
    included) in direction k, after reconstruction in direction [d]: those whose
    neighbours within the reach are cells, in this direction only ([all]) or in all. *)
Definition reconstructed (dims reach : Z) (all : bool) (n : Z -> Z) (d : Z) (c : cell) : bool :=
  forallb (fun k => let m := if k =? d then reach - 1 else if all then 0 else if k <? dims then reach else 0 in
     (m <=? along k c) && (along k c <? n k - m))%Z [0; 1; 2]%Z.

(** The array that a wide flux sees in the direction [d]: old content except for the
    cells reconstructed in the directions up to [d]. *)
Fixpoint seen {V : cvars} (dims : Z) (rc : recon V) (n : Z -> Z) (u old : cell -> V) (d : nat) (c : cell) : V :=
  if reconstructed dims (rec_ghosts rc) (rec_all rc) n (Z.of_nat d) c
  then fst (rec_at rc (Z.of_nat d) u c)
  else match d with O => old c | S d => seen dims rc n u old d c end.

(** Flux in minus flux out, when direction [d] has its own field. *)
Definition rhs_of {V : cvars} (dims : Z) (fx : numflux V) (field : Z -> cell -> V) (c : cell) : V :=
  fold_left (fun a d =>
      vadd a (vadd (fst (iface fx no_reconstruction d (field d) (move d (-1) c)))
                   (vscal (-1) (fst (iface fx no_reconstruction d (field d) c)))))
    (zrange 0 dims) vzero.
