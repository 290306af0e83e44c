Z='Model/Sizing.v'; R='Model/ReadBin.v'; I='Model/Interp.v'; V='Model/VelocityIO.v'; O='Model/Options.v'; SR='Model/SizingRanks.v'
MUT=[
(Z,'flattenF','av a i j k) (triples (n0 a) (n1 a) (n2 a))','av a i j k) (triples (n0 a) (n1 a) 1)','C07/C18: only the first plane is flattened',[]),
(Z,'reshapeF','(i + a * (j + b * k))','(j + a * (i + b * k))','C16: rows and columns exchanged after grading',[]),
(Z,'is_water','Rltb v (1 / 1000)','Rltb v (-1)','C12: zero velocities not recognised',[]),
(Z,'prepare_vp','replace_water (o_vp_water o) (convert_units (o_units o) vp)','sbind (replace_water (o_vp_water o) vp) (fun v => SzOk (convert_units (o_units o) v))','C12/C13: water replaced before the units are converted',[]),
(Z,'bbox_dim','Ok 3%nat else Err ValueError','Ok 3%nat else Ok 2%nat','C95: boxes of any length accepted',[]),
(Z,'window_variance','s - m * m','s - m','C94: variance without the square of the mean',[]),
(Z,'gradient_sizing','else if Rltb grad 0 then SzErr ValueError','else if Rltb grad 0 then SzOk vp','C95: a negative grad accepted',[]),
(Z,'initial_size','SzOk (amap2 Rmin a b)','SzOk (amap2 Rmax a b)','C11: the coarser of the two criteria wins',[]),
(Z,'initial_size','else SzOk (amap (fun _ => o_hmin o) vp)','else SzOk (amap (fun _ => o_hmax o) vp)','C99/C07: hmax where no criterion is given',[]),
(Z,'max_sweeps','Z.to_nat 10000','Z.to_nat 1','C84: a single sweep of grading',[]),
(Z,'int_of','Z.to_nat (Int_part x)','S (Z.to_nat (Int_part x))','C14: one layer too many',[]),
(Z,'dz_of','(bget b 1 - bget b 0) / INR (n0 vp)','(bget b 1 - bget b 0) / INR (n1 vp)','C14/C15: cell height from the wrong extent',[]),
(Z,'dx_of','(bget b 3 - bget b 2) / INR (n1 vp)','(bget b 1 - bget b 0) / INR (n1 vp)','C14: cell width from the wrong interval',[]),
(Z,'pad_counts','if Nat.eqb (adim vp) 3 then int_of (pad / dy_of vp b) else 0%nat','0%nat','C14: no layers along y',[]),
(Z,'domain_pad','sbind (pad_it st p0 p1 p2 (amax vp) vp)','sbind (pad_it st p0 p1 p2 (amax a) vp)','C14: velocities padded with the largest size',[]),
(Z,'domain_pad','if Rltb pad 0 then SzErr ValueError\n  else','','C14: negative padding accepted',[]),
(Z,'get_sizing','courant vp1 a1 (o_cr_max o)','courant vp a1 (o_cr_max o)','C09/C10: Courant step on the unconverted velocities',[]),
(Z,'get_sizing','let a1 := clamp (o_hmin o) (o_hmax o) a0 in','let a1 := a0 in','C07: no clamping',[]),
(Z,'get_sizing','gradation a2 (o_grade o) ((bget b 1 - bget b 0) / INR (n0 vp1))','gradation a2 (o_grade o) 1','C16: grading with unit spacing',[]),
(Z,'default_opts','150 10000 0 2','150 10000 0 0','C95: default frequency 0',[]),
(Z,'linspace','INR (n - 1)','INR n','C15/C83: last sample short of the box',[]),
(R,'index_of','if Nat.eqb x y then 0 else S (index_of x t)','if Nat.eqb x y then 0 else index_of x t','C17: all axes at position 0',[]),
(R,'argsort','map (fun r => index_of r l) (seq 0 (length l))','l','C17: axes order not inverted',[]),
(R,'is_perm3','&& existsb (Nat.eqb 2) l','','C17: axes orders with a repeated axis accepted',[]),
(R,'result_shape','map (fun m => nth m axes\' 0) ao','axes\'','C17: shape not transposed',[]),
(R,'read_bin','(length file) (nz * nx * ny)','(length file) (nz * nx)','C17: third extent ignored in the size test',[]),
(R,'read_bin','if negb byte_order_ok then Err ValueError\n      else','','C17: unknown byte order accepted',[]),
(I,'count_lt','Rltb a x','Rltb x a','C83: cell counted from the far end',[]),
(I,'weight','/ (nth (S i) g 0 - nth i g 0)','','C83: weight not divided by the cell width',[]),
(I,'grid_vec','rnd (linspace lo hi n i)','rnd (linspace hi lo n i)','C83: grid vector reversed',[]),
(I,'arr_at','av a (nth 0 k O) (nth 1 k O) (nth 2 k O)','av a (nth 1 k O) (nth 0 k O) (nth 2 k O)','C83: indices exchanged',[]),
(I,'build_interpolant','if negb (forallb increasing gs) then SzErr ValueError\n  else','','C95: vectors that are not increasing accepted',[]),
(I,'size_function','SzOk (b\', f, o_hmin o)','SzOk (b, f, o_hmin o)','C83/C95: the box before padding is attached',[]),
(I,'size_function','SzOk (b\', f, o_hmin o)','SzOk (b\', f, amin a)','C08/C95: the declared minimum is the smallest size',[]),
(I,'size_function_other','(b0, fun _ => 1, o_hmin o)','(b0, fun _ => o_hmin o, o_hmin o)','C96: other ranks hold the minimum size',[]),
(V,'ends_with','String.eqb (String.substring (String.length s - String.length suf) (String.length suf) s) suf','true','C87: every long enough name read as SEG-Y',[]),
(V,'read_velocity_model','(r_nx ro) (r_ny ro)','(r_ny ro) (r_nx ro)','C87: nx and ny exchanged when reading',[]),
(V,'read_velocity_model','if ends_with ".segy" name then','if ends_with ".bin" name then','C87: another extension decides',[]),
(O,'mem','existsb (String.eqb k) l','existsb (fun x => String.prefix x k) l','C19: names that begin like an option accepted',[]),
(O,'parse_kwargs','check_keys mesh_keys.','fun kw => check_keys mesh_keys (tl kw).','C19: first keyword not checked',[]),
(O,'sizing_check','Nat.eqb rank 0','Nat.eqb rank 1','C19: names checked on rank 1',[]),
(O,'lookup','if String.eqb k k\' then Some v else lookup k t','if String.eqb k k\' then lookup k t else lookup k t','C75: every option has its default',[]),
(O,'get_num','| None => Ok d','| None => Err TypeError','C75: options without default value',[]),
(O,'select_verbosity','else Err ValueError.','else Ok (false, false).','C75: negative verbosity accepted',[]),
(O,'select_verbosity','else if Rgtb (nval v) 1 then Ok (true, true)','else if Rgtb (nval v) 0 then Ok (true, true)','C75: fractional verbosity accepted',[]),
(O,'minmax','minmax_from false.','minmax_from true.','C75: intersection instead of hull of the boxes',[]),
(O,'minmax_from','minmax_from (negb upper) t0 t1','minmax_from upper t0 t1','C75: minimum taken for all entries',[]),
(O,'is_int','PFloat _ => false','PFloat _ => true','C75: boxes of floats rejected',[]),
(O,'check_bbox','existsb is_int b','forallb is_int b','C75: boxes with a single integer accepted',[]),
(O,'unpack_domain','| Some (VList b) => rbind (check_bbox b) (fun _ => Ok (false, b))','| Some (VList b) => rbind (check_bbox b) (fun _ => Ok (true, b))','C75: a list accepted as bbox',[]),
(O,'unpack_domain','| DomOther => Err ValueError','| DomOther => Ok (true, [])','C75: any object accepted as domain',[]),
(O,'unpack_sizing','| EdgeScalar h => Ok (None, Some h)','| EdgeScalar h => Ok (None, None)','C75: h0 needed with a scalar size',[]),
(O,'mesh_prologue','if Rltb (nval h0) 0 then','if Rleb (nval h0) 0 then','C75: h0 = 0 rejected',[]),
(O,'mesh_prologue','if Rltb (nval mi) 0 then Err ValueError else','','C75: negative max_iter accepted',[]),
(O,'mesh_prologue','if negb (fst bt) then Err ValueError else','','C75: box need not be a tuple',[]),
]
