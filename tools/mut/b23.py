D="Model/Dihedral64.v"
MUT=[
(D,"dihedral_angle64","if Rltb c (-1) || Rltb 1 c then None else Some (acos64 c)","Some (acos64 (Rmax (-1) (Rmin 1 c)))","C130: cosine clamped to [-1,1]",[]),
(D,"dihedral_angle64","if Rltb c (-1) || Rltb 1 c then","if Rltb c (-1) then","C130: no NaN above 1",[]),
(D,"cphi64","dot_product64 v2 v3 - rnd64","dot_product64 v2 v3 + rnd64","C130: sign in the cosine",[]),
(D,"slivers64","(i / 6)%nat","(i / 4)%nat","C130: wrong cell number",[]),
(D,"slivers64","unique_nat (map","(map","C130: repeated cell numbers",[]),
(D,"cell_angles64","(seq 0 6)","(seq 0 5)","C130: sixth angle dropped",[]),
(D,"cell_angles64","nth (5 - i) dh_edges","nth i dh_edges","C130: opposite edge wrong",[]),
(D,"l2_norm64","rnd64 (sqrt (sum64","rnd64 (id (sum64","C130: squared norm",[]),
(D,"calc_dihedral_angles64","cell_angles64 acos64 (pts_of p r)","cell_angles64 acos64 (rev (pts_of p r))","C130: corners in another order",[]),
(D,"cphi64","l2_norm64 (cross_product64 v1 v3)","l2_norm64 (cross_product64 v2 v3)","C130: other face in the denominator",[]),
(D,"cphi64","dot_product64 v1 v2 * dot_product64 v1 v3","dot_product64 v1 v2 * dot_product64 v2 v3","C130: wrong projection",[]),
(D,"cross_product64","rnd64 (A 1%nat * B 2%nat) - rnd64 (A 2%nat * B 1%nat)","rnd64 (A 1%nat * B 2%nat) + rnd64 (A 2%nat * B 1%nat)","C130: sign in the cross product",[]),
(D,"dot_product64","sum64 (map2","2 * sum64 (map2","C130: doubled dot product",[]),
]
