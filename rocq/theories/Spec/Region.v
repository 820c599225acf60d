(** What a macroparticle frame should show: the particles of a species in a range of cells. Cell (i, k) is the ring
    i*dr < r <= (i+1)*dr, k*dz < z <= (k+1)*dz with dr = r_size / (n_r - 1), dz = z_size / (n_z - 1). *)
From Coq Require Import String Reals ZArith List.
From Verif.Model Require Import Geometry Diagnostics.
Local Open Scope R_scope.

Definition in_cells (g : geom) (r0 z0 r1 z1 : Z) (x : dpart) : Prop :=
  let hr := r_size g / (IZR (n_r g) - 1) in
  let hz := z_size g / (IZR (n_z g) - 1) in
  IZR r0 * hr < d_r x <= (IZR r1 + 1) * hr /\ IZR z0 * hz < d_z x <= (IZR z1 + 1) * hz.

Definition in_cells_dec (g : geom) (r0 z0 r1 z1 : Z) (x : dpart) : {in_cells g r0 z0 r1 z1 x} + {~ in_cells g r0 z0 r1 z1 x}.
Proof.
  unfold in_cells. cbv zeta.
  destruct (Rlt_dec (IZR r0 * (r_size g / (IZR (n_r g) - 1))) (d_r x)); [|right; tauto].
  destruct (Rle_dec (d_r x) ((IZR r1 + 1) * (r_size g / (IZR (n_r g) - 1)))); [|right; tauto].
  destruct (Rlt_dec (IZR z0 * (z_size g / (IZR (n_z g) - 1))) (d_z x)); [|right; tauto].
  destruct (Rle_dec (d_z x) ((IZR z1 + 1) * (z_size g / (IZR (n_z g) - 1)))); [|right; tauto].
  left. tauto.
Defined.

(** All particles of the species with a given name that lie in the cells, dead or alive, in the order of storage. *)
Definition shown_of (g : geom) (r0 z0 r1 z1 : Z) (name : string) (species : list (string * list dpart)) : list dpart :=
  flat_map (fun s => if string_dec (fst s) name
                     then filter (fun x => if in_cells_dec g r0 z0 r1 z1 x then true else false) (snd s) else nil) species.

(** The live ones among them. *)
Definition live_of (g : geom) (r0 z0 r1 z1 : Z) (name : string) (species : list (string * list dpart)) : list dpart :=
  filter d_alive (shown_of g r0 z0 r1 z1 name species).
