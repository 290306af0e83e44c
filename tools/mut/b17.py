S="Model/SDF.v"
MUT=[
 (S,"dprism","Rabs x * (866025 / 1000000)","Rabs x * (966025 / 1000000)","C119: prism gradient above 1",[]),
 (S,"dtorus","length_ [length_ [x; z] - r1; y] - r2","length_ [x ^ 2 + z ^ 2 - r1; y] - r2","C119: square root forgotten in the torus",[]),
 (S,"dcylinder","Rmin (Rmax d0 d1) 0 + length_ [Rmax d0 0; Rmax d1 0]","Rmax (Rmax d0 d1) 0 + length_ [Rmax d0 0; Rmax d1 0]","C119: cylinder outside distance doubled",[]),
 (S,"smooth_union","Rmin d1 d2 - h * h * (1 / 4) / k","Rmin d1 d2 - h * h / k","C119: factor 1/4 dropped in smooth union",[]),
 (S,"smooth_difference","Rmax (- d1) d2 + h * h * (1 / 4) / k","Rmax (- d1) d2 + h * h * (1 / 4) * k","C119: multiplied by k",[]),
 (S,"smooth_intersection","Rmax (k - Rabs (d1 - d2)) 0 in Rmax","Rmax (k - (d1 - d2)) 0 in Rmax","C119: abs dropped",[]),
 (S,"difference_vals","x :: map Ropp t end","x :: map (fun y => - 2 * y) t end","C119: subtracted function doubled",[]),
 (S,"scale_back","vx * vi / alpha + (xi - vx * vi)","vx * vi * alpha + (xi - vx * vi)","C119: stretch not inverted",[]),
 (S,"rot_y","[- sin a; 0; cos a]","[sin a; 0; cos a]","C119: rotation matrix is not orthogonal",[]),
 (S,"fold_coord","np_mod (x + 5 / 10 * p) p - 5 / 10 * p","np_mod x p","C119: Repeat not centred",[]),
 (S,"repeat_eval","Rmax (f (map2 fold_coord x period))","Rmin (f (map2 fold_coord x period))","C30: Repeat unites instead of clipping",[]),
 (S,"union_vals","if Reqb k 0 then reduce_ Rmin d","if Reqb k 0 then reduce_ Rplus d","C119: sum instead of minimum",[]),
 (S,"dball","sqrt ((x - xc) ^ 2 + (y - yc) ^ 2 + (z - zc) ^ 2)","sqrt (2 * (x - xc) ^ 2 + (y - yc) ^ 2 + (z - zc) ^ 2)","C119: ball anisotropic",[]),
]
