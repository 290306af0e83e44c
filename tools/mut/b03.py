G='Model/Generator.v';N='Model/Newton.v';F='Model/Forces.v';T='Model/Triang.v';W='Model/WhereTo.v';B='Model/Blocker.v';L='Model/Localize.v';M='Model/Migration.v';I='Model/InitGrid.v';D='Model/Dihedral.v';P='Model/Laplace.v'
MUT=[
(B,'lims','rnd (max_list (column k points) + eps)','rnd (max_list (column k points))','C62/C78: no margin above (exact arithmetic may not notice)',[]),
(B,'in_block','Rleb x (rnd (l + d))','Rltb x (rnd (l + d))','C63: half-open blocks',[]),
(B,'divisions','Some ([1; num_blocks], [1; num_blocks])','Some ([num_blocks; 1], [num_blocks; 1])','C62: axis 0 splits the other axis',[]),
(B,'divisions','Some ([1; num_blocks; num_blocks], [1; 1; num_blocks])','Some ([1; 1; num_blocks], [1; 1; num_blocks])','C80: axis 2 repaired (negative theorem fails)',[]),
(B,'blocker','filter (fun b => negb (length b =? 0)%nat)','filter (fun b => negb (length b =? 1)%nat)','C62: blocks with one point dropped',[]),
(B,'extent','map (fun k => max_list (column k block)) (seq 0 dim)','map (fun k => min_list (column k block)) (seq 0 dim)','C62/C79: extents',[]),
(L,'deal','| local :: rest => match nth_error blocks local with','| local :: rest => match nth_error blocks (local - 1) with','C79: every rank gets the block of its predecessor',[]),
(L,'localize_sizing','map (fun r => Send r (lfh r)) (seq 1 (size - 1))','map (fun r => Send r (lfh 1%nat)) (seq 1 (size - 1))','C79: everybody gets the sizing of rank 1',[]),
(M,'exchange','[Recv (rank + 1)] else [])','[Recv (rank + 1)] else [Recv (rank + 1)])','C56: last rank waits for a missing neighbour',[]),
(M,'exchange','[Send (rank - 1) (firstn (nsb ex) (rows ex))]','[Send (rank - 1) (firstn (nsa ex) (rows ex))]','C56: wrong count sent below',[]),
(M,'exchange','if ((nsb ex =? 0) && (nsa ex =? 0))%nat then []\n  else (if','if false then []\n  else (if','C57: early return dropped',[]),
(M,'gather','(v + nth (r - 1) csum 0)%nat','(v + nth r csum 0)%nat','C58: offset of the wrong rank',[]),
(M,'delete_ghosts','firstn (length p - recv_ix) p','skipn recv_ix p','C77: deletes the first vertices',[]),
(M,'delete_ghosts','if (recv_ix =? 0)%nat then [] else','','C77: slice [-0:] deletes nothing',[]),
(I,'n_nodes','Zceil ((stop - start) / step)','Zfloor ((stop - start) / step)','C65: last row lost',[]),
(I,'shift','if Nat.odd i then h0 / 2 else 0','if Nat.even i then h0 / 2 else 0','C65: even rows shifted',[]),
(I,'local_span','(n_nodes start (lo + h0) h0 - 1) + h0, hi)','(n_nodes start (lo + h0) h0 - 1), hi)','C66: first row repeated on the next rank',[]),
(I,'sizing_vectors','arange (fst b - 3 * h0) (snd b + 3 * h0) h0','arange (fst b) (snd b + 3 * h0) h0','C67: no margin below',[]),
(D,'dh_edges','[(2,3);(1,3);(1,2);(0,3);(0,2);(0,1)]','[(2,3);(1,3);(1,2);(0,3);(0,2);(0,3)]','C55: one edge tested twice, one never',[]),
(D,'out_of_bounds','Rltb x lo || Rltb hi x','Rltb x lo','C55: upper bound ignored',[]),
(D,'slivers','(i / 6)%nat','(i / 5)%nat','C55: element number',[]),
(D,'dihedral_angle','dot_product v2 v3 - dot_product v1 v2 * dot_product v1 v3','dot_product v2 v3 + dot_product v1 v2 * dot_product v1 v3','C55: angle formula',[]),
(P,'lap_sweep','if existsb (Nat.eqb v) fixed then nth v p []\n    else','','C52: boundary moves',[]),
(P,'adj_entries','[(0,1);(0,2);(1,0);(1,2);(2,0);(2,1)]','[(0,1);(0,2);(1,0);(1,2);(2,0)]','C52: neighbour dropped',[]),
(P,'argmin_from','if Rltb x bv then','if Rltb bv x then','C52: furthest instead of closest',[]),
(P,'lap_loop','if Rltb move tol then','if Rltb (Rabs move) tol then','C53: signed test repaired (negative theorem fails)',[]),
(P,'lap_matrix','(if (v =? u)%nat then 1 else 0)','coo_at t v u','C54: boundary rows kept',[]),
(P,'coo_entries','(a, b, -1); (b, a, -1)','(a, b, -1)','C54: unsymmetric matrix',[]),
]
