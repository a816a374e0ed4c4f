#!/usr/bin/env python3
"""usage: reword.py FILE  -- FILE: JSON {id: {statement|title|quantifier: new}}; rewrites gen_properties.py call arguments"""
import sys,json,re
src=open('/verif/tools/gen_properties.py').read()
edits=json.load(open(sys.argv[1]))
for i,e in edits.items():
    m=re.search(r'^p\("%s",("(?:[^"\\]|\\.)*"),\n  ("(?:[^"\\]|\\.)*"),\n  ("(?:[^"\\]|\\.)*"),'%i,src,re.M)
    assert m,i
    for k,g in (('title',1),('statement',2),('quantifier',3)):
        if k in e:
            a,b=m.span(g); new=json.dumps(e[k],ensure_ascii=False)
            src=src[:a]+new+src[b:]
            m=re.search(r'^p\("%s",("(?:[^"\\]|\\.)*"),\n  ("(?:[^"\\]|\\.)*"),\n  ("(?:[^"\\]|\\.)*"),'%i,src,re.M)
open('/verif/tools/gen_properties.py','w').write(src)
