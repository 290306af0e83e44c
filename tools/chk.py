import runpy,sys
for b in sys.argv[1:]:
    M=runpy.run_path('/verif/tools/mut/'+b+'.py')['MUT']
    for m in M:
        s=open('/verif/rocq/theories/'+m[0]).read()
        if s.count(m[2])!=1: print(b,m[0],m[1],s.count(m[2]))
    print(b,len(M))
