P="Model/Plot.v"; L="Model/Laplace.v"; A="Model/Parallel.v"; S="Model/SizingRanks.v"; V="Model/VelocityIO.v"; U="Model/UFilter.v"; I="Model/InitGrid64.v"; T="Model/Triang.v"; N="Model/Snap.v"; R="Model/Round.v"; J="Model/Int32.v"
MUT=[
 (P,"plot_sizing_function","(arange z0 z1 50)","(arange z0 z1 100)","C122: rows every 100 units instead of 50",[]),
 (P,"plot_row","eval [z; x]","eval [x; z]","C122: size looked up with swapped coordinates",[]),
 (P,"plot_sizing_function","if negb (rank =? 0)%nat then Err OtherError\n  else ","","C122: other ranks plot too",[]),
 (P,"every","mod Z.to_nat stride =? 0)%nat","mod Z.to_nat stride =? 1)%nat","C122: stride starts at row 1",[]),
 (P,"sample_point","(lo - 1 / 100 + (hi + 1 / 100","(lo + 1 / 100 + (hi + 1 / 100","C122: sample box starts inside",[]),
 (P,"show","Rltb (d_eval d x) (1 / 100))","Rltb (d_eval d x) (1 / 10))","C122: points farther outside are shown",[]),
 (P,"show","figure_for None","figure_for filename","C122: (repair) file name honoured",[]),
 (L,"lap_loop","if Rltb move tol then p' else","if Rleb move tol then p' else","C123: stops at a move equal to tol, so that tol = 0 stops",[]),
 (L,"lap_loop","lap_loop k' t fixed es tol L' p'","lap_loop k' t fixed es tol L' p","C123: every sweep starts again from the input",[]),
 (L,"lap_sweep","(fun u => nth j (nth u p []) 0) (nbrs t v)) / INR","(fun u => nth j (nth u p []) 0) (nbrs t v)) / 2 / INR","C123: over-damped sweep",[]),
 (A,"own_extent","max_list (column i p) + (if (i =? axis)%nat then 5 * h0 else 0)","max_list (column i p) + (if (i =? axis)%nat then 3 * h0 else 0)","C117: upper extent padded by 3 h0 only",[]),
 (A,"bcasts_p","Done (nth 0 (pts_in m) [] :: l)","Done (mine :: l)","C89: every rank takes its own extent for all",[]),
 (A,"allreduce_min","fold_left Rmin (map num_in l) x","fold_left Rmax (map num_in l) x","C89: maximum instead of minimum of the ranks",[]),
 (A,"exchange_p","(MPts (firstn (nsa ex) (skipn (nsb ex) (rows ex))))","(MPts (firstn (nsa ex) (rows ex)))","C89: the first rows are sent above",[]),
 (A,"aggregate_p","gather (cumsum 0 off_p) 1","gather off_p 1","C89: offsets not accumulated",[]),
 (A,"par_loop","delete_ghosts (next_points P p3 t4) (recv_count ex recv)","next_points P p3 t4","C89: ghosts stay",[]),
 (A,"flat_index","(i * length (grid_of vs) + flat_index vs k')%nat","(i * length v + flat_index vs k')%nat","C116: local sizes read with the wrong stride",[]),
 (S,"sizing_rank","if (1 <? size)%nat then","if (2 <? size)%nat then","C96: no broadcast with two processes",[]),
 (V,"read_segy","nth (nz - 1 - i)","nth i","C87: depth not flipped",[]),
 (V,"write_velocity_model","Some n => n | None => name end","Some n => name | None => name end","C87: the given output name is ignored",[]),
 (V,"write_velocity_model","if Rgtb (w_domain_pad w) 0 then","if Rgtb (w_domain_pad w) 1 then","C87: pads only above 1",[]),
 (U,"mean2","mean_line w (n2 a)","mean_line w (n1 a)","C94: third axis reflected at the second extent",[]),
 (I,"n_nodes64","Zceil (rnd64 (rnd64 (rnd64 (hi + h) - lo) / h))","Zceil (rnd64 (rnd64 (hi - lo) / h))","C108: last node missing",[]),
 (I,"staggered3_64","shifted64 (fst b1) h i j; shifted64 (fst b2) h i k]","shifted64 (fst b1) h i j; shifted64 (fst b2) h j k]","C108: third axis shifted by the second index",[]),
 (T,"insert_pairs","seq (length (verts s)) (length p)","seq 0 (length p)","C74: numbers of inserted points start at 0",[]),
 (T,"face_edges","Some g => (addr g <? addr f)%Z && is_in sel g","Some g => (addr g <? addr f)%Z","C82: an edge shared with an unselected face is lost",[]),
 (T,"tet_edges","[(0,1);(1,2);(2,0);(0,3);(1,3);(2,3)]","[(0,1);(1,2);(2,0);(0,3);(1,3)]","C82: sixth edge of the tetrahedron left out",[]),
 (N,"snap1","Reqb v 0 && Rltb x 0","false","C97: -0.0 and 0.0 compared as equal",[]),
 (R,"ddisk64","[x; y] => rnd64 (rnd64 (sqrt (rnd64 (sqdiff64 x xc + sqdiff64 y yc)))","[x; y] => rnd64 (rnd64 (sqrt (rnd64 (sqdiff64 x xc + sqdiff64 y xc)))","C98: wrong centre for y",[]),
 (R,"dball64","+ sqdiff64 z zc)","+ sqdiff64 z yc)","C98: wrong centre for z",[]),
 (J,"int_ok","(z <=? 2 ^ 31 - 1)","(z <=? 2 ^ 31)","C112: 2^31 taken for an int",[]),
 (J,"sub2ind_i","obind (imul z a) (fun z => iadd c z)","obind (imul z nrows) (fun z => iadd c z)","C112: layer stride wrong",[]),
 ("Model/Calls.v","fd_of","GeomV _ _ _ f => f | FunV f => f","GeomV _ _ _ f => f | FunV f => fun x => - f x","C107: sign of subdomain functions",["C107_full_call_subdomains"]),
 ("Model/Calls.v","with_subs","(o_delta_t o) (o_geps_mult o) subs","(o_delta_t o) (o_geps_mult o) (o_subdomains o)","C107: subdomains not passed on",["C107_full_call_subdomains"]),
]
