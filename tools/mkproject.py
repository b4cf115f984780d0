#!/usr/bin/env python3
"""Rewrite rocq/_CoqProject to list every file in rocq/theories."""
import os
d=os.path.join(os.path.dirname(__file__),'..','rocq')
fs=sorted(f for f in os.listdir(os.path.join(d,'theories')) if f.endswith('.v'))
open(os.path.join(d,'_CoqProject'),'w').write('-Q theories Verif\n'+''.join('theories/%s\n'%f for f in fs))
