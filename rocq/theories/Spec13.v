(** * Spec13: which boards hang together, which fall apart (C82, C84, C90 continued). *)

From Verif Require Import Machine Store Axes Shapes Lattice Spec Spec2 Spec11.

(** [Whole s G]: the shapes whose boards are one piece. *)
Inductive Whole : forall A D : Type, Shape Cell A D -> Geometry A D -> Prop :=
| wh_enclosed A D (s : Shape Cell A D) G : Enclosed s G -> Whole _ _ s G
| wh_offset_q_loop b w h :
    fits w h ->
    Whole _ _ (hex_offset_q_lew b w h) (rect_code_geometry hexq_axes (hex_offset_q_lew b w h) w h).
Arguments Whole {A D}.

(** [Parts s G r]: what counting the pieces of the board gives.  Of doubled coordinates the cells
    in the first [w] doubled columns are one piece, every other cell is a piece of its own. *)
Inductive Parts : forall A D : Type, Shape Cell A D -> Geometry A D -> outcome Z -> Prop :=
| pa_whole A D (s : Shape Cell A D) G :
    Whole s G -> Parts _ _ s G (Ok (match geo_nodes G with [] => 0 | _ => 1 end))
| pa_leaky A D (s : Shape Cell A D) G : Leaky s G -> Parts _ _ s G (Fail FPanic)
| pa_offset_q b w h :
    fits w h -> 2 <= w -> 1 <= h -> h mod 2 <> co_q b ->
    Parts _ _ (hex_offset_q b w h) (rect_code_geometry hexq_axes (hex_offset_q b w h) w h)
      (Fail FPanic)
| pa_double w h :
    fits w h -> 2 <= w -> 1 <= h ->
    Parts _ _ (double_shape w h) (double_code_geometry w h)
      (Ok (1 + Z.of_nat (length (filter (fun c => w <=? fst c) (board w h double_cell)))))
| pa_double_column h :
    fits 1 h -> Parts _ _ (double_shape 1 h) (double_code_geometry 1 h) (Ok h).
Arguments Parts {A D}.

(** [Ringed s G b]: whether the edges of the board close a cycle, for the shapes that are not in
    [Cyclic] (Spec8.v). *)
Inductive Ringed : forall A D : Type, Shape Cell A D -> Geometry A D -> bool -> Prop :=
| ri_offset_q b w h :
    fits w h -> w <= 1 \/ h = 0 \/ h mod 2 = co_q b ->
    Ringed _ _ (hex_offset_q b w h) (rect_code_geometry hexq_axes (hex_offset_q b w h) w h) (1 <? w)
| ri_offset_q_dir b w h :
    fits w h -> w <= 1 \/ h = 0 \/ h mod 2 = co_q b ->
    Ringed _ _ (hex_offset_q_dir b w h)
      (rect_code_geometry (directed_axes hexq_axes) (hex_offset_q_dir b w h) w h) (1 <? w * h)
| ri_offset_q_loop b w h :
    fits w h ->
    Ringed _ _ (hex_offset_q_lew b w h)
      (rect_code_geometry hexq_axes (hex_offset_q_lew b w h) w h) true
| ri_axial_r_loop k b w h :
    fits w h -> axial_fits k (co_r b) w h -> h + co_r b <= 2 ->
    Ringed _ _ (hex_axial_r_lew k b w h)
      (axial_code_geometry hexr_axes (hex_axial_r_lew k b w h) k (co_r b) w h) true
| ri_axial_r_dir_loop k b w h :
    fits w h -> axial_fits k (co_r b) w h -> h + co_r b <= 2 ->
    Ringed _ _ (hex_axial_r_dir_lew k b w h)
      (axial_code_geometry (directed_axes hexr_axes) (hex_axial_r_dir_lew k b w h)
         k (co_r b) w h) true
| ri_axial_q_loop k b w h :
    fits w h -> axial_fits k (co_q b) w h -> h + co_q b <= 2 ->
    Ringed _ _ (hex_axial_q_lew k b w h)
      (axial_code_geometry hexq_axes (hex_axial_q_lew k b w h) k (co_q b) w h) true
| ri_axial_q_dir_loop k b w h :
    fits w h -> axial_fits k (co_q b) w h -> h + co_q b <= 2 ->
    Ringed _ _ (hex_axial_q_dir_lew k b w h)
      (axial_code_geometry (directed_axes hexq_axes) (hex_axial_q_dir_lew k b w h)
         k (co_q b) w h) true
| ri_double w h :
    fits w h ->
    Ringed _ _ (double_shape w h) (double_code_geometry w h) ((2 <? w) && (1 <? h)).
Arguments Ringed {A D}.
