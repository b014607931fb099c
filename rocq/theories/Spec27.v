(** * Spec27: which boards are looped, and after how many columns (C131). *)

From Verif Require Import Machine Axes Spec.

(** Boards where a step over the edge leads nowhere. *)
Inductive Unlooped : forall A D, Geometry A D -> Prop :=
| un_square A D (ax : AxisGeo A D) w h : Unlooped A D (square_geometry ax w h)
| un_offset_r A (ax : AxisGeo A AxisDR) b w h : Unlooped A AxisDR (offset_r_geometry ax b w h)
| un_axial_r A (ax : AxisGeo A AxisDR) k b w h : Unlooped A AxisDR (axial_r_geometry ax k b w h)
| un_axial_q A (ax : AxisGeo A AxisDQ) k b w h : Unlooped A AxisDQ (axial_q_geometry ax k b w h).
Arguments Unlooped {A D}.

(** Boards where going on for [w] columns leads back to the same node. *)
Inductive LoopsAfter : forall A D, Geometry A D -> Z -> Prop :=
| la_offset_r b w h : LoopsAfter _ _ (offset_r_loop_geometry hexr_axes b w h) w
| la_axial_r k b w h : LoopsAfter _ _ (axial_r_loop_geometry hexr_axes k b w h) w
| la_axial_r_dir k b w h : LoopsAfter _ _ (axial_r_loop_geometry (directed_axes hexr_axes) k b w h) w
| la_axial_q k b w h : LoopsAfter _ _ (axial_q_loop_geometry hexq_axes k b w h) w
| la_axial_q_dir k b w h : LoopsAfter _ _ (axial_q_loop_geometry (directed_axes hexq_axes) k b w h) w.
Arguments LoopsAfter {A D}.

(** At least three columns before a looped board comes round. *)
Definition Wide {A D} (G : Geometry A D) : Prop :=
  Unlooped G \/ exists w, LoopsAfter G w /\ 3 <= w.
