CA='Model/Calls.v'; G6='Model/InitGrid64.v'; SF='Model/SizingFloat.v'; GE='Model/Generator.v'; PA='Model/Parallel.v'; PR='Model/Process.v'
MUT=[
(G6,'n_nodes64','Zceil (rnd64 (rnd64 (rnd64 (hi + h) - lo) / h))','Zfloor (rnd64 (rnd64 (rnd64 (hi + h) - lo) / h))','C108: floor instead of ceil: last node missing',[]),
(G6,'n_nodes64','rnd64 (rnd64 (hi + h) - lo)','rnd64 (hi - lo)','C108: stop is hi instead of hi + h',[]),
(G6,'node64','rnd64 (rnd64 (INR k * h) + lo)','rnd64 (INR k * h)','C108: nodes start at 0',[]),
(G6,'shifted64','rnd64 (h / 2)','rnd64 h','C108: odd rows shifted by a whole spacing',[]),
(G6,'shifted64','if Nat.odd i','if Nat.even i','C108: even rows shifted',[]),
(G6,'staggered3_64','shifted64 (fst b2) h i k','node64 (fst b2) h k','C108: third coordinate not shifted',[]),
(G6,'staggered2_64','map (fun j => [node64 (fst b0) h i; shifted64','map (fun j => [node64 (fst b1) h i; shifted64','C108: first coordinate starts at the wrong corner',[]),
(SF,'convert_units_f','rd t (v * 1000)','rd t (v * 100)','C109: km/s multiplied by 100',['C109_velocity']),
(SF,'replace_water_f','then rd t x else v','then v else rd t x','C109: land replaced by water',[]),
(SF,'wave_divisor','rnd64 (freq * wl)','rnd64 (freq / wl)','C109: frequency over number of cells',[]),
(SF,'wavelength_sizing_f','rd t (v / wave_divisor t freq wl)','rd t (v * wave_divisor t freq wl)','C109: product instead of quotient',[]),
(SF,'initial_size_f','SzOk (amap2 Rmin a b)','SzOk (amap2 Rmax a b)','C109: larger of the two sizes (upper wavelength bound)',[]),
(SF,'clamp_f','if Rltb v (rd s hmin) then rd s hmin else v','v','C109: no lower limit',[]),
(SF,'clamp_f','if Rgtb v (rd s hmax) then rd s hmax else v','v','C109: no upper limit',[]),
(SF,'clamp_f','then rd s hmax else v','then rd F32 hmax else v','C109: upper limit always written in single precision',[]),
(SF,'limit_f','rnd64 (cr_max / rnd64 (dim * space_order))','rnd64 (cr_max / dim)','C109: space order ignored',[]),
(SF,'courant_f','rd s (rd t (v * rd t dt) / rd s (d * x))','rd s (rd t (v * rd t dt) / x)','C109: Courant number without the dimension',[]),
(SF,'courant_f','then rd t (rd t (v * rd t dt) / rd t (rnd64 (d * c))) else x','then x else x','C109: violating cells not enlarged',[]),
(SF,'courant_f','rd t (rd t (v * rd t dt) / rd t (rnd64 (d * c)))','rd F32 (rd t (v * rd t dt) / rd t (rnd64 (d * c)))','C109: enlarged sizes always stored in single precision',[]),
(SF,'gradation_f','limgrad rnd64','limgrad (fun x => x + 1)','C109: limiter with a wrong arithmetic',[]),
(SF,'width_f','rnd64 (rnd64 (hi - lo) / INR n)','rnd64 (rnd64 (hi - lo) / INR (n - 1))','C110: width over the number of gaps',[]),
(SF,'layers_f','int_of (rnd64 (pad / width_f lo hi n))','S (int_of (rnd64 (pad / width_f lo hi n)))','C110: one layer more',[]),
(SF,'pad_counts_f','(layers_f pad (bget b 0) (bget b 1) (n0 vp), layers_f','(0%nat, layers_f','C110: no rows added at depth',[]),
(SF,'padded_bbox_f','[lo 0%nat; bget b 1; lo 2%nat; hi 3%nat].','[bget b 0; bget b 1; lo 2%nat; hi 3%nat].','C110: box not grown at depth in 2D',[]),
(SF,'domain_pad_f','sbind (pad_it_f st p0 p1 p2 (amax a) a)','sbind (pad_it_f st p0 p1 p2 0 a)','C109: padding with zeros instead of the largest size',[]),
(SF,'get_sizing_f','let a1 := clamp_f s (o_hmin o) (o_hmax o) a0 in','let a1 := clamp_f s (o_hmax o) (o_hmin o) a0 in','C109: limits swapped',[]),
(SF,'size_type','then t else F64','then F64 else t','C109: precision of the sizes swapped',[]),
(GE,'run_fix','p t true true with','p t false true with','C69/C73: unused vertices kept (fix_mesh before returning)',[]),
(GE,'run_delete','2 min_qual p t (b_ve B t)','2 0 p t (b_ve B t)','C92: poor boundary cells not deleted',[]),
(GE,'termination','run_delete B (15 / 100)','run_delete B (0 / 100)','C106: boundary cells of poor quality kept at the end',[]),
(GE,'termination','if smooth then (b_solve','if negb smooth then (b_solve','C114: smoothing when it is switched off',['C114_unsmoothed']),
(GE,'next_points','(g_fd P :: match g_subs P with Some l => l | None => [] end)','(match g_subs P with Some l => l | None => [] end)','C71/C86/C103: no projection onto the outer boundary',[]),
(GE,'next_points','(ifix_of P p) p t)','[] p t)','C86: forces on fixed points not zeroed',[]),
(GE,'dom_corners','DObject o => d_corners o','DObject o => None','C102: corners never fixed',[]),
(GE,'size_fh','| SScalar h => fun _ => h','| SScalar h => fun _ => 2 * h','C85: scalar size doubled',[]),
(GE,'size_hmin','SObject _ h _ => Some h','SObject _ h _ => None','C68/C107: hmin of the size object ignored',[]),
(GE,'box_eqb','then true else false','then false else true','C72: equal boxes replace the domain',[]),
(GE,'box_fd','(Rectangle x1 x2 y1 y2 no_manip)','(Rectangle x1 y1 x2 y2 no_manip)','C72: replacement rectangle with swapped arguments',[]),
(GE,'pairs_of','(x, y) :: pairs_of t','(y, x) :: pairs_of t','C85: box pairs reversed',[]),
(GE,'grid_points','make_init_points (pairs_of bbox) 0 1 1 h0','make_init_points (pairs_of bbox) 0 1 1 (2 * h0)','C85: grid twice as coarse for a plain function',[]),
(GE,'r0m_of','then 11 / 10 * h0 else h0','then h0 else 11 / 10 * h0','C85: r0m_is_h0 branches swapped',[]),
(GE,'initial_points','Rltb (fd x) geps','Rltb (fd x) 0','C85: candidates on the boundary dropped',[]),
(GE,'initial_points','r0m ^ dim / nth i r0 0 ^ dim','nth i r0 0 ^ dim / r0m ^ dim','C85/C103: acceptance probability inverted',[]),
(GE,'initial_points','Ok (pfix ++ map','Ok (map','C86: fixed points not among the starting points',[]),
(GE,'start_points','Some p => Ok p','Some p => Ok (pfix ++ p)','C90/C107/C86: fixed points added to user points',[]),
(GE,'generate_mesh','mesh_loop B P fuel 0 p','mesh_loop B P fuel 1 p','C68: counter starts at 1',[]),
(GE,'cube_fd','(Cube x1 x2 y1 y2 z1 z2 no_manip)) | _ => None','(Cube x1 x2 z1 z2 y1 y2 no_manip)) | _ => None','C73: replacement cube with swapped axes',[]),
(GE,'fixed_points','o_pfix o ++ kept_corners','[] ++ kept_corners','C86/C102: user fixed points forgotten',[]),
(GE,'used_corners','if (dim =? 3)%nat then [] else c','if (dim =? 2)%nat then [] else c','C102: corners dropped in 2D instead of 3D',[]),
(GE,'argmin2','if Rltb y x then 1%nat else 0%nat','if Rltb x y then 1%nat else 0%nat','C92: the better cell of an overlap deleted',[]),
(PA,'send_all','Out d tag (f d) (send_all tag r f)','Out d tag (f 0%nat) (send_all tag r f)','C89: every rank gets the data of rank 0',[]),
(PA,'recv_all','Done (m :: l)','Done (l ++ [m])','C89: received messages in reverse order',[]),
(PA,'bcast_p','(fun _ => m)) (fun _ => Done m) else Inp root coll Done','(fun _ => m)) (fun _ => Done m) else Inp 0%nat coll Done','C89: broadcast always read from rank 0',[]),
(PA,'allreduce_min','fold_left Rmin (map num_in l) x','x','C89: minimum of rank 0 only',[]),
(PA,'sizing_vectors use','let vecs := sizing_vectors bbox r size axis h0 in','let vecs := sizing_vectors bbox 0 size axis h0 in','C89: all ranks get the interpolant of rank 0',[]),
(PA,'flat_index','(i * length (grid_of vs) + flat_index vs k\')%nat','(i * length vs + flat_index vs k\')%nat','C67/C89: wrong stride of the sent array',[]),
(PA,'lsf','SFunction _ => false | _ => true','SFunction _ => true | _ => false','C89/C91: plain functions localized instead of size objects',[]),
(PA,'localize_points_p','Done (Ok (nth 0 blocks [], ext))','Done (Ok (nth 1 blocks [], ext))','C79: rank 0 keeps the wrong block',[]),
(PA,'with_ghosts','nth rank ext []','nth 0 ext []','C89: external entities with respect to rank 0',[]),
(PA,'exchange_p','Done (a ++ b)','Done (b ++ a)','C89: ghosts from below first',[]),
(PA,'recv_count','then 1%nat else length recv','then 0%nat else length recv','C77/C90: no vertex lost when nothing is exchanged',[]),
(PA,'par_rank','[] (o_subdomains o)','(o_pfix o) (o_subdomains o)','C89: fixed points kept with several processes',[]),
(PA,'par_loop','delete_ghosts (next_points P p3 t4) (recv_count ex recv)','next_points P p3 t4','C77/C89: ghosts not deleted',[]),
(PA,'aggregate_p','(cumsum 0 off_p)','off_p','C58/C89: offsets not accumulated',[]),
(PA,'own_extent','min_list (column i p) - (if (i =? axis)%nat then 5 * h0 else 0)','min_list (column i p) + (if (i =? axis)%nat then 5 * h0 else 0)','C66: extents shrunk on the low side',[]),
(CA,'opt','match given k kw with Some v => v | None => default end','default','C107: keywords ignored',[]),
(CA,'number','ABool b => Ok (if b then 1 else 0)','ABool b => Err TypeError','C107: True not accepted as a number',[]),
(CA,'truth','| ANum n => negb (Reqb (nval n) 0)','| ANum n => Reqb (nval n) 0','C107: numbers as flags inverted',[]),
(CA,'seed_ok','(z <? 2 ^ 32))%Z','(z <? 2 ^ 31))%Z','C107: seeds above 2^31 refused',[]),
(CA,'seed_check','| ANone | ABool _ => Ok tt','| ANone | ABool _ => Err TypeError','C107: seed None refused',[]),
(CA,'used_domain','if tup then Ok d1 else','if negb tup then Ok d1 else','C107: list and tuple boxes exchanged',[]),
(CA,'fixed_of','Some l => Ok l\n  end).','Some l => Ok (tl l)\n  end).','C107: first fixed point dropped',[]),
(CA,'read_options','(opt "max_iter" (ANum (PInt 50)) kw)) (fun mi =>\n  rbind (number (opt "delta_t"','(opt "max_iter" (ANum (PInt 60)) kw)) (fun mi =>\n  rbind (number (opt "delta_t"','C107: default of max_iter',[]),
(CA,'read_options','(PFloat (3 / 10))','(PFloat (2 / 10))','C107: default of delta_t',[]),
(CA,'read_options','(truth (opt "mesh_improvement" (ABool true) kw))','(truth (opt "mesh_improvement" (ABool false) kw))','C107: default of mesh_improvement',[]),
(CA,'call_generate_mesh','with_rand B (rand (opt "seed" (ANum (PInt 0)) kw))','with_rand B (rand (ANum (PInt 0)))','C107: seed ignored',[]),
(CA,'call_generate_mesh','generate_mesh B1 d1 s1 (with_subs o subs) fuel','generate_mesh B1 d1 s1 o fuel','C107: subdomains ignored',[]),
]
