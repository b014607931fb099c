(** * Spec11: where [neighbors] and [edges] lead (C98, C99). *)

From Verif Require Import Machine Store Axes Shapes Lattice Spec.

(** [Reached nb next nodes a n c]: [n] steps lead from [a] to [c], each of them to one of the
    [nodes] that [neighbors] lists for the node before. *)
Inductive Reached {C It} (nb : C -> It) (next : C -> It -> outcome (option C * It))
  (nodes : list C) (a : C) : nat -> C -> Prop :=
| reached_here : Reached nb next nodes a 0 a
| reached_step n b c l :
    Reached nb next nodes a n b -> Drains (next b) (nb b) l -> In c l -> In c nodes ->
    Reached nb next nodes a (S n) c.

(** [Followed edges next target a c]: from [a], calling [edges] and going on to the target of
    one of the edges it yields, again and again, leads to [c]. *)
Inductive Followed {C It R} (edges : C -> outcome It) (next : It -> outcome (option R * It))
  (target : R -> C) (a : C) : C -> Prop :=
| followed_here : Followed edges next target a a
| followed_step b it l it' r :
    Followed edges next target a b -> edges b = Ok it -> Consumed next it l it' -> In r l ->
    Followed edges next target a (target r).

(** [Enclosed s G]: the shapes of which no edge leads off the board and whose edges are all
    stored.  [Leaky s G]: the shapes of which an edge that is stored leads off the board.
    All other shapes are [Untraversable] (Spec.v). *)
Inductive Enclosed : forall A D : Type, Shape Cell A D -> Geometry A D -> Prop :=
| en_supported A D (s : Shape Cell A D) G : Supported s G -> Enclosed _ _ s G
| en_offset_q b w h :
    fits w h -> w <= 1 \/ h = 0 \/ h mod 2 = co_q b ->
    Enclosed _ _ (hex_offset_q b w h) (rect_code_geometry hexq_axes (hex_offset_q b w h) w h)
| en_offset_q_dir b w h :
    fits w h -> w <= 1 \/ h = 0 \/ h mod 2 = co_q b ->
    Enclosed _ _ (hex_offset_q_dir b w h)
      (rect_code_geometry (directed_axes hexq_axes) (hex_offset_q_dir b w h) w h)
| en_offset_q_loop b w h :
    fits w h -> w <= 1 \/ h = 0 \/ (b = EvenQ /\ h mod 2 = 1) ->
    Enclosed _ _ (hex_offset_q_lew b w h)
      (rect_code_geometry hexq_axes (hex_offset_q_lew b w h) w h)
| en_axial_r_loop k b w h :
    fits w h -> axial_fits k (co_r b) w h -> w = 0 \/ h + co_r b <= 2 ->
    Enclosed _ _ (hex_axial_r_lew k b w h)
      (axial_code_geometry hexr_axes (hex_axial_r_lew k b w h) k (co_r b) w h)
| en_axial_r_dir_loop k b w h :
    fits w h -> axial_fits k (co_r b) w h -> w = 0 \/ h + co_r b <= 2 ->
    Enclosed _ _ (hex_axial_r_dir_lew k b w h)
      (axial_code_geometry (directed_axes hexr_axes) (hex_axial_r_dir_lew k b w h)
         k (co_r b) w h)
| en_axial_q_loop k b w h :
    fits w h -> axial_fits k (co_q b) w h -> w = 0 \/ h + co_q b <= 2 ->
    Enclosed _ _ (hex_axial_q_lew k b w h)
      (axial_code_geometry hexq_axes (hex_axial_q_lew k b w h) k (co_q b) w h)
| en_axial_q_dir_loop k b w h :
    fits w h -> axial_fits k (co_q b) w h -> w = 0 \/ h + co_q b <= 2 ->
    Enclosed _ _ (hex_axial_q_dir_lew k b w h)
      (axial_code_geometry (directed_axes hexq_axes) (hex_axial_q_dir_lew k b w h)
         k (co_q b) w h)
| en_double w h :
    fits w h -> w * h <= 1 ->
    Enclosed _ _ (double_shape w h) (double_code_geometry w h).
Arguments Enclosed {A D}.

Inductive Leaky : forall A D : Type, Shape Cell A D -> Geometry A D -> Prop :=
| lk_offset_q_dir b w h :
    fits w h -> 2 <= w -> 1 <= h -> h mod 2 <> co_q b ->
    Leaky _ _ (hex_offset_q_dir b w h)
      (rect_code_geometry (directed_axes hexq_axes) (hex_offset_q_dir b w h) w h)
| lk_axial_r_loop k b w h :
    fits w h -> axial_fits k (co_r b) w h -> 1 <= w -> 3 <= h + co_r b ->
    Leaky _ _ (hex_axial_r_lew k b w h)
      (axial_code_geometry hexr_axes (hex_axial_r_lew k b w h) k (co_r b) w h)
| lk_axial_r_dir_loop k b w h :
    fits w h -> axial_fits k (co_r b) w h -> 1 <= w -> 3 <= h + co_r b ->
    Leaky _ _ (hex_axial_r_dir_lew k b w h)
      (axial_code_geometry (directed_axes hexr_axes) (hex_axial_r_dir_lew k b w h)
         k (co_r b) w h)
| lk_axial_q_loop k b w h :
    fits w h -> axial_fits k (co_q b) w h -> 1 <= w -> 3 <= h + co_q b ->
    Leaky _ _ (hex_axial_q_lew k b w h)
      (axial_code_geometry hexq_axes (hex_axial_q_lew k b w h) k (co_q b) w h)
| lk_axial_q_dir_loop k b w h :
    fits w h -> axial_fits k (co_q b) w h -> 1 <= w -> 3 <= h + co_q b ->
    Leaky _ _ (hex_axial_q_dir_lew k b w h)
      (axial_code_geometry (directed_axes hexq_axes) (hex_axial_q_dir_lew k b w h)
         k (co_q b) w h).
Arguments Leaky {A D}.

(** [Faults body s f]: the loop [body], started in [s], ends with the fault [f]. *)
Inductive Faults {S R} (body : S -> outcome (S + R)) (f : fault) : S -> Prop :=
| faults_now s : body s = Fail f -> Faults body f s
| faults_later s s' : body s = Ok (inl s') -> Faults body f s' -> Faults body f s.
