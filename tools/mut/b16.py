S="Model/SizingCall.v"
MUT=[
 (S,"interpolant_call","else if negb (same_shape a vp) then SzErr ValueError","else if false then SzErr ValueError","C118: sizes of another shape reach the interpolator",[]),
 (S,"velocities","| Some vp => Ok (vp, r_nz ro, r_nx ro, r_ny ro)","| Some vp => Ok (vp, Some (n0 vp), Some (n1 vp), Some (n2 vp))","C118: missing nz accepted beside velocity_data",[]),
 (S,"velocities","| None => rbind (read_velocity_model asraw name f ro) (fun vp =>\n      if ends_with \".segy\" name then Ok (vp, Some (n0 vp), Some (n1 vp), Some 0%nat) else Ok (vp, r_nz ro, r_nx ro, r_ny ro))","| None => rbind (read_velocity_model asraw name f ro) (fun vp => Ok (vp, r_nz ro, r_nx ro, r_ny ro))","C118: the user's counts used for SEG-Y",[]),
 (S,"box_too_short","(length b <? 6)%nat","(length b <? 4)%nat","C118: short box accepted for 3D array",[]),
 (S,"sizing_call","if tuple || Rgtb (o_domain_pad o) 0 then SzOk","if true then SzOk","C118: list boxes accepted",[]),
 (S,"sizing_call","if tuple || Rgtb (o_domain_pad o) 0 then SzOk","if tuple then SzOk","C118: list boxes refused when padded",[]),
 (S,"sizing_call","if negb known then SzErr ValueError else","if false then SzErr ValueError else","C118: unknown keywords accepted",[]),
 (S,"sizing_call","((bget b 1 - bget b 0) / INR (S n))","((bget b 3 - bget b 2) / INR (S n))","C118: grid spacing from the x extent",[]),
 (S,"sizing_call","((bget b 1 - bget b 0) / INR (S n))","((bget b 1 - bget b 0) / INR n)","C118: off by one spacing",[]),
 (S,"sizing_call","if Rgtb (o_wl o) 0 || Rgtb (o_grad o) 0 then initial_size","if Rgtb (o_wl o) 0 then initial_size","C118: grad alone gives constant sizes",[]),
 (S,"sizing_call","SzOk (b', f, o_hmin o)","SzOk (b, f, o_hmin o)","C118: padded box not returned",[]),
 (S,"sizing_call","(courant_call vp1 a1 (o_cr_max o) (o_dt o) (o_space_order o))","(courant_call vp a1 (o_cr_max o) (o_dt o) (o_space_order o))","C118: time step checked against the unprepared velocities",[]),
 (S,"sizing_call","sbind (pad_call a3 vp1 b (o_pad_style o) (o_domain_pad o))","sbind (pad_call a2 vp1 b (o_pad_style o) (o_domain_pad o))","C118: gradation dropped",[]),
 (S,"constant_size","| _, _, _ => Err TypeError","| _, _, _ => Ok (mkArr dim 0 0 0 (fun _ _ _ => h))","C118: missing counts give an empty array",[]),
 (S,"constant_size","(if Nat.eqb dim 3 then ny else Some 1%nat)","(match ny with Some y => Some y | None => Some 1%nat end)","C118: ny not required in 3D",[]),
 (S,"fit1","else if Nat.eqb n 1 then Some m else None","else Some m","C118: any counts are stretched",[]),
 (S,"fit1","else if Nat.eqb n 1 then Some m else None","else None","C118: counts 1 refused",[]),
 (S,"stretch","(fun i j k => av a (if Nat.eqb (n0 a) 1 then 0%nat else i)","(fun i j k => av a i","C118: stretching reads outside the array",[]),
 (S,"courant_call","if Rgtb (v * dt / (d * s)) cr then v * dt / (d * cr) else s","if Rgtb (v * dt / (d * s)) cr then s else v * dt / (d * cr)","C118: time step condition inverted in the call",[]),
 (S,"courant_call","let d := INR (adim vp) in","let d := 2 in","C118: dimension fixed to 2",[]),
 (S,"pad_call","else SzOk (a, vp, b)","else SzOk (a, vp, firstn 4 b)","C118: the box is cut",[]),
 (S,"pad_call","else domain_pad a vp b st pad","else domain_pad vp a b st pad","C118: sizes and velocities swapped",[]),
]
