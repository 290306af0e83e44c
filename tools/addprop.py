"""addprop.py id title|statement|quantifier|why|anchors(comma separated python expressions)|note  read from stdin as a python dict"""
import sys, re
d = eval(sys.stdin.read())
p = '/verif/tools/props_table.py'; s = open(p).read()
s += '\nprop(%r,\n %r,\n %r,\n %r,\n [%s])\n' % (d['title'], d['statement'], d['quantifier'], d['why'], d['anchors'])
open(p, 'w').write(s)
p = '/verif/tools/status.py'; s = open(p).read().rstrip(); assert s.endswith('}')
s = s[:-1] + '    %r: ("proved", %r),\n}\n' % (d['id'], d['note'])
open(p, 'w').write(s)
