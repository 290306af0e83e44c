(** The option names the two entry points accept, written out independently of the model's own tables
    (mesh_generator.py l.291-352 docstring and l.624-652; mesh_size_function.py l.24-109 docstring and l.177-206). *)
From Coq Require Import String List.
Import ListNotations.
Local Open Scope string_scope.

Definition mesh_option_names : list string :=
  ["verbose"; "max_iter"; "seed"; "perform_checks"; "pfix"; "axis"; "points"; "domain"; "edge_length"; "bbox";
   "min_dh_angle_bound"; "max_dh_angle_bound"; "delta_t"; "h0"; "geps_mult"; "subdomains"; "gamma"; "preserve";
   "mesh_improvement"; "r0m_is_h0"].

Definition sizing_option_names : list string :=
  ["hmin"; "hmax"; "wl"; "freq"; "cr_max"; "dt"; "space_order"; "grad"; "grade"; "stencil_size"; "pad_style";
   "domain_pad"; "units"; "nz"; "nx"; "ny"; "byte_order"; "axes_order"; "axes_order_sort"; "dtype"; "velocity_data"; "vp_water"].
