S='Model/SDF.v';X='Model/Simplex.v';F='Model/Formulas.v';M='Model/Mesh.v';I='Model/Interp.v';V='Model/VelocityIO.v';P='Model/Process.v';R='Model/Parallel.v';G='Model/Generator.v';MG='Model/Migration.v'
MUT=[
(MG,'delete_ghosts','if (recv_ix =? 0)%nat then [] else','','C77: slice [-0:] deletes nothing (re-run after tightening)',['C77_zero_count_loses_all']),
(S,'ddisk','sqrt ((x - xc) ^ 2 + (y - yc) ^ 2) - r | _','sqrt ((x - xc) ^ 2 + (y - xc) ^ 2) - r | _','C20: wrong centre',[]),
(S,'dball','(z - zc) ^ 2) - r','(z - zc) ^ 2) + r','C20: sign of the radius',[]),
(S,'c_drectangle','let tmp1 := stdmin sum1 sum2 in let tmp2 := stdmin tmp1 sum3 in - stdmin tmp2 sum4','let tmp1 := stdmin sum1 sum2 in let tmp2 := stdmin tmp1 sum3 in - stdmin tmp1 sum4','C21: one side forgotten',[]),
(S,'stdmin','if Rltb b a then b else a.','if Rltb b a then a else b.','C21: maximum instead of minimum',[]),
(S,'c_dblock','let tmp3 := stdmin tmp2 sum4 in let tmp4 := stdmin tmp3 sum5','let tmp3 := stdmin tmp2 sum4 in let tmp4 := stdmin tmp2 sum5','C21: one side of the block forgotten',[]),
(S,'dblock','(rnd (- z1 + z)) (rnd (z2 - z))','(rnd (- z1 + z)) (rnd (z1 - z))','C21/C22: Python block distance',[]),
(S,'dtorus','length_ [length_ [x; z] - r1; y] - r2','length_ [length_ [x; y] - r1; z] - r2','C22: torus about the other axis',[]),
(S,'dprism','Rmax (Rabs z - h)','Rmax (Rabs z - h / 2)','C22: prism height',[]),
(S,'dcylinder','length_ [Rmax d0 0; Rmax d1 0]','length_ [Rmax d0 0; Rmax d0 0]','C22: cylinder caps',[]),
(S,'manipulate','let x1 := match m_trans m with Some t => translate_back t x | None => x end in','let x1 := x in','C27: translation dropped in eval',[]),
(S,'manipulate','if Reqb c 0 then x3 else mat_vec (transpose2 (rot_z c)) x3','if Reqb c 0 then x3 else mat_vec (rot_z c) x3','C27: rotation about z with the wrong sign',[]),
(S,'scale_back','vx * vi / alpha','vx * vi * alpha','C27: stretch inverted',[]),
(S,'build_stretch','(b, Some (corners b))\n  end.','(b, snd s)\n  end.','C29: corners not updated by stretch',[]),
(S,'build_rotation','let bb := image_bbox 2 (map (mat_vec (rot2 a)) (corners (fst s))) in (bb','let bb := image_bbox 2 (map (mat_vec (transpose2 (rot2 a))) (corners (fst s))) in (bb','C28: 2D box rotated the wrong way',[]),
(S,'merge3','if upper then max3 i j k else min3 i j k','if upper then max3 i j k else max3 i j k','C28: 3D box: lower sides',[]),
(S,'build_translation','(shift_box (fst s) t, snd s)','(shift_box (fst s) t, option_map (map (fun c => map2 Rplus c t)) (snd s))','C29: corners moved too (repaired program: negative claims fail)',[]),
(S,'Disk','make_prim 2 m [xc - r; xc + r; yc - r; yc + r] None','make_prim 2 m [xc - r; xc + r; yc; yc + r] None','C26: box of the disk too small',[]),
(S,'Torus','let z := 2 * Rmax r1 r2 in','let z := / 4 * Rmax r1 r2 in','C22: box of the torus too small',[]),
(S,'Prism','[- b; b; - b; b; - h; h]','[- b; b; - b; b; 0; h]','C22: box of the prism',[]),
(S,'Cylinder','let hh := h / 2 in let sz','let hh := h in let sz','C22: cylinder of double height',[]),
(S,'gather_corners','| cs => Some (concat cs)','| cs => Some (hd [] cs)','C23: corners of the first operand only',[]),
(S,'set_bbox','Ok (min_list lo :: max_list hi :: t)','Ok (max_list lo :: max_list hi :: t)','C26: union box',[]),
(S,'smooth_union','Rmin d1 d2 - h * h','Rmin d1 d2 + h * h','C24: smooth union grows the wrong way',[]),
(S,'difference_vals','reduce_ (smooth_difference k) (rev d)','reduce_ (smooth_difference k) d','C25: smooth difference argument order',[]),
(S,'difference_vals','x :: map Ropp t end)','map Ropp (x :: t) end)','C23: difference negates the first operand',[]),
(S,'union_vals','if Reqb k 0 then reduce_ Rmin d','if Reqb k 0 then reduce_ Rmax d','C23: union is an intersection',[]),
(S,'fold_coord','np_mod (x + 5 / 10 * p) p - 5 / 10 * p','np_mod x p - 5 / 10 * p','C30: repeat off by half a period',[]),
(S,'repeat_eval','Rmax (f','Rmin (f','C30: repeat not cut by the box',[]),
(S,'kept_corners','Rgtb (fd c) (-1000 * deps)','Rgtb (fd c) (1000 * deps)','C29: corners kept only outside',[]),
(X,'simp_vol','(az * bx - ax * bz) * (y3 - y0)','(az * bx + ax * bz) * (y3 - y0)','C44: 3D volume',[]),
(X,'simp_qual','if Reqb h 0 then Some 0','if Reqb h 0 then None','C43: collinear quality',[]),
(X,'simp_qual','(a * b * c / sqrt h)','(a * b * c)','C43: quality scale',[]),
(F,'det4','- m8 * m13 * m6 * m3','+ m8 * m13 * m6 * m3','C45: determinant sign',[]),
(F,'volume_grad','- z1 * (y2 - y3)','+ z1 * (y2 - y3)','C46: volume gradient',[]),
(F,'circumsphere_grad','let dDy_dy := - 2 * y1 * da_dy in','let dDy_dy := - 2 * x1 * da_dy in','C47: circumsphere gradient',[]),
(F,'vertex_in_entity2','Rleb 0 c && Rleb c 1','true','C48: point in triangle: third coordinate',[]),
(F,'vertex_in_entity3','if negb (s3 =? s2)%Z then false else','','C48: point in tetrahedron: one side (redundant with the final test: equivalent program)',[]),
(F,'vertex_in_entity3','let signs := [s0; s1; s2; s3; s4] in','let signs := [s0; s1; s2; s3] in','C48: point in tetrahedron: final test (equivalent program: s4 = s3 is tested before)',[]),
(F,'centroid','/ INR (S dim)','/ INR dim','C49: centroid',[]),
(F,'do_any_overlap','if (ie =? ele)%nat then []\n      else','','C49: an element overlaps itself',[]),
(F,'calc_re_ratios','firstn ((3 * length t) / 6) t','t','C50: 2D ratios repaired (negative claims fail)',[]),
(F,'min_edge','[[0;1];[1;2];[2;0]] ++','[[0;1];[1;2]] ++','C50: shortest edge',[]),
]
