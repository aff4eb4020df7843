import pprint
def s(x): return '"'+x.replace('"','""')+'"'
def chars(x):
    # string as Coq term with control characters
    out=[];cur=''
    for c in x:
        if 32<=ord(c)<127 : cur+=c
        else:
            if cur: out.append(s(cur)); cur=''
            out.append('String (ascii_of_nat %d) ""'%ord(c))
    if cur or not out: out.append(s(cur))
    return ' ++ '.join(out)
def val(v):
    if v is None: return 'VNone'
    if v is True: return 'VBool true'
    if v is False: return 'VBool false'
    if isinstance(v,int): return 'VInt (%d)'%v
    if isinstance(v,float):
        r=repr(v); neg=r[0]=='-'; a,b=r.lstrip('-').split('.'); return 'VFloat %s %s "%s"'%('true' if neg else 'false',a,b)
    if isinstance(v,str): return 'VStr (%s)'%chars(v)
    if isinstance(v,list): return 'VList [%s]'%'; '.join(map(val,v))
    if isinstance(v,tuple): return 'VTuple [%s]'%'; '.join(map(val,v))
tests=[
 "a\tb\nc\rd\\e\x7f\x80\xa0\xad\xff'", 'say "hi"', 'say "it\'s"', '', '\x1f\x00',
 list(range(100,120)), tuple(range(100,120)), list(range(100,119))+[1], list(range(1000,1013))+[11], list(range(1000,1013))+[111],
 ([1]*30,), (list(range(100,118)),), [list(range(100,118)),(1,)], [list(range(1000,1013)),5], [list(range(1000,1012))+[22222],5], [5,list(range(1000,1012))+[22222]],[5,list(range(1000,1012))+[222222]],
 'word '*20, 'x'*79, 'x'*78, 'x'*77+' y', 'x'*90, ['word '*20,'b'], ['a', 'word '*20], 'first line\nsecond line which is long enough to make the whole string too wide for one line\n\nlast',
 'a\r\nb '*20, 'tail '*14+'abcdefgh', 'tail '*14+'abcdefg','tail '*14+'abcdef','tail '*14+'abcde','tail '*14+'abcd', 'nbsp\xa0word '*8, 'x\x1cy\x1fz\x85w\x0bv\x0cu'*8, ['tail '*14+'abcd'], ['tail '*14+'abcde'],['tail '*14+'abc'],['tail '*14+'abcd',1], ('tail '*14+'abcd',), [('tail '*14+'abcd',)], [['tail '*14+'abcd']],
 [[['x'*70]]], [[['x'*71]]],[[['x'*72]]],[('x'*70,)],[('x'*72,)],[('x'*73,)],[('x'*74,)],
 [-1.5, 2.0, None, True, False, -7, 'q'], ["it's "*10 + '"'+"it's "*10],
 'ab   cd  '*10, '   lead'*12, 'line one is here\n'*4+' '*70+'end of it', ['\n'*3+'z'*80],
]
print('Definition pprint_cases : list (value * string) :=\n [')
print(';\n'.join('  (%s, %s)'%(val(t),chars2) for t,chars2 in ((t,' ++ '.join('(%s)'%chars(x) for x in ['']) if False else '(' + chars(pprint.pformat(t)) + ')%string') for t in tests))+'].')
